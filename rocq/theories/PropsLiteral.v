(** C55: values written as text are read back as the same value. *)
From Coq Require Import String Ascii List ZArith NArith Bool Arith Lia ZifyBool ZifyNat ZifyN.
From Coq Require Import Init.Datatypes.
From Verif Require Import OperatorModel EscapeModel AddressModel AddressProofs DataModel DataProofs LiteralModel LiteralProofs.
Import ListNotations.
Open Scope N_scope.

(** [literal] (LiteralProofs.v) says which values these are: nothing, booleans, integers,
    counts, strings and patterns without control characters and without odd runs of
    backslashes in front of a quote or at the end, v4 addresses and v4 subnets, and lists, maps
    with different keys and records with different names of such values, nested to any depth.
    [follow] says what may stand behind a value: nothing, a bracket or a comma, or a blank and an
    operator or a connective. [A] stands for the floating point unit, the clock and the C
    library: nothing is assumed about them. *)

(** The text of a value is read as this value, in front of whatever may follow. *)
Theorem C55_round_trip : forall A d t r n, literal d -> show A d = Some t -> follow r = true -> (length t < n)%nat -> data_p A n (t ++ r) = Ok d r.
Proof. intros A d t r n L H F Hn. exact (literal_reads A d L n t r H F Hn). Qed.

(** On its own, it is consumed to the end. *)
Theorem C55_whole : forall A d t n, literal d -> show A d = Some t -> (length t < n)%nat -> data_p A n t = Ok d [].
Proof. intros A d t n L H Hn. rewrite <- (app_nil_r t) at 1. now apply C55_round_trip. Qed.

(** Two values never have the same text. *)
Theorem C55_different : forall A d e t, literal d -> literal e -> show A d = Some t -> show A e = Some t -> d = e.
Proof.
  intros A d e t L M H K. pose proof (C55_whole A d t (S (length t)) L H (Nat.lt_succ_diag_r _)) as P.
  pose proof (C55_whole A e t (S (length t)) M K (Nat.lt_succ_diag_r _)) as Q. rewrite P in Q. now injection Q.
Qed.

(** All values have a text, except those that contain the smallest integer. *)
Fixpoint no_min (d : data) : Prop :=
  match d with
  | DInt z => z <> (- 2 ^ 63)%Z
  | DList l => fold_right (fun x P => no_min x /\ P) True l
  | DMap l => fold_right (fun p P => no_min (fst p) /\ no_min (snd p) /\ P) True l
  | DRecord l => fold_right (fun p P => no_min (snd p) /\ P) True l
  | _ => True
  end.
Lemma all_some_exists : forall {B C} (f : B -> option C) l, Forall (fun x => exists t, f x = Some t) l -> exists ts, all_some (map f l) = Some ts.
Proof.
  intros B C f l H. induction H as [|x l (t & Hx) H (ts & IH)]; [exists []; reflexivity|]. exists (t :: ts). cbn [map all_some]. rewrite Hx, IH. reflexivity.
Qed.
Theorem C55_text : forall A d, no_min d -> exists t, show A d = Some t.
Proof.
  intros A d. apply (data_rect' (fun d => no_min d -> exists t, show A d = Some t)); clear d.
  - intros d Hd M. destruct d; try contradiction; cbn [show]; eauto. cbn [no_min] in M. unfold show_int. destruct (Z.eqb_spec z (- 2 ^ 63)); [contradiction|]. destruct (z <? 0)%Z; eauto.
  - intros xs H M. cbn [no_min show] in *. assert (F : Forall (fun x => exists t, show A x = Some t) xs).
    { induction H as [|x xs Hx H IH]; [constructor|]. cbn [fold_right] in M. destruct M as [M1 M2]. constructor; auto. }
    destruct (all_some_exists _ _ F) as (ts & ->). cbn [option_map]. eauto.
  - intros xs H M. cbn [no_min show] in *. match goal with |- context [map ?f xs] => assert (F : Forall (fun x => exists t, f x = Some t) xs) end.
    { induction H as [|x xs Hx H IH]; [constructor|]. cbn [fold_right] in M. destruct M as (M1 & M2 & M3). constructor; [|auto].
      destruct Hx as [Hx1 Hx2]. destruct (Hx1 M1) as (? & ->). destruct (Hx2 M2) as (? & ->). eauto. }
    destruct (all_some_exists _ _ F) as (ts & ->). cbn [option_map]. eauto.
  - intros xs H M. cbn [no_min show] in *. match goal with |- context [map ?f xs] => assert (F : Forall (fun x => exists t, f x = Some t) xs) end.
    { induction H as [|x xs Hx H IH]; [constructor|]. cbn [fold_right] in M. destruct M as (M1 & M2). constructor; [|auto]. destruct (Hx M1) as (? & ->). cbn [option_map]. eauto. }
    destruct (all_some_exists _ _ F) as (ts & ->). cbn [option_map]. eauto.
Qed.

(** A nested value: [<name: "a \"b\" \\", tags: [nil, T, -5, 18446744073709551615], nets:
    {10.0.0.0/8 -> /x.y/, 127.0.0.1 -> [ ]}>]. *)
Definition sample : data :=
  DRecord [(chars "name", DString (chars "a ""b"" \\"));
           (chars "tags", DList [DNone; DBool true; DInt (-5); DCount (2 ^ 64 - 1)]);
           (chars "nets", DMap [(DSubnet (sn_make (v4_prefix ++ [10; 0; 0; 0]) 8), DPattern (chars "x\.y"));
                                (DAddress (v4_prefix ++ [127; 0; 0; 1]), DList [])])].
Definition sample_text : text :=
  chars "<name: ""a \""b\"" \\"", tags: [nil, T, -5, 18446744073709551615], nets: {10.0.0.0/8 -> /x\.y/, 127.0.0.1 -> []}>".
Lemma v4_wf : forall x y z w, x < 256 -> y < 256 -> z < 256 -> w < 256 -> wf (v4_prefix ++ [x; y; z; w]).
Proof. intros. split; [reflexivity|]. apply Forall_app. split; [apply v4_prefix_wf|]. repeat constructor; assumption. Qed.
Example C55_example : forall A, literal sample /\ show A sample = Some sample_text /\ data_p A 200 (sample_text ++ chars " && x == 1") = Ok sample (chars " && x == 1").
Proof.
  intros A. assert (L : literal sample).
  { cbn [literal sample fold_right fst snd]. split.
    - split; [discriminate|]. split; [reflexivity|]. split; [reflexivity|]. split; [discriminate|]. split; [reflexivity|]. split; [repeat split; lia|].
      split; [discriminate|]. split; [reflexivity|]. split; [|exact Logic.I]. split.
      + split; [split; [apply sn_make_wf, v4_wf; reflexivity|reflexivity]|]. split; [reflexivity|].
        split; [split; [apply v4_wf; reflexivity|reflexivity]|]. auto.
      + repeat constructor.
    - repeat constructor; cbn; intuition discriminate. }
  split; [exact L|]. split; [reflexivity|]. apply C55_round_trip; [exact L|reflexivity|reflexivity|vm_compute; lia].
Qed.

(** * What is not read back *)

(** No text in quotes denotes a string that ends in an odd number of backslashes: a backslash
    in front of the closing quote escapes the quote, and two backslashes are read as two. *)
Definition parity (b : bool) (s : text) : bool := fold_left (fun b c => if c =? 92 then negb b else false) s b.
Lemma parity_app : forall b s t, parity b (s ++ t) = parity (parity b s) t.
Proof. intros. unfold parity. apply fold_left_app. Qed.
Lemma str_chr_cases : forall s a r, str_chr c_quote s = Ok a r ->
  parity false a = false \/ (a = [92] /\ (forall c r', r = c :: r' -> c <> 92 /\ c <> 34)).
Proof.
  intros s a r H. unfold str_chr in H. destruct s as [|c s]; [discriminate|]. destruct (N.eqb_spec c 92) as [->|Hc].
  - destruct s as [|d s]; [right; cbv in H; injection H as <- <-; split; [reflexivity|discriminate]|].
    destruct (N.eqb_spec d 34) as [->|Hq]; [left; cbv in H; injection H as <- _; reflexivity|].
    destruct (N.eqb_spec d 92) as [->|Hd]; [left; cbv in H; injection H as <- _; reflexivity|].
    right. pose proof (str_chr_one c_quote d s eq_refl ltac:(now apply N.eqb_neq) ltac:(now apply N.eqb_neq)) as E. unfold str_chr in E. rewrite E in H. injection H as <- <-.
    split; [reflexivity|]. intros c' r' [= <- <-]. auto.
  - left. assert (B : ch c_backslash (c :: s) = No) by (apply ch_no; cbn [stops]; unfold c_backslash; apply N.eqb_neq; congruence).
    rewrite alt_no in H by (now apply then_no). rewrite alt_no in H by (now apply then_no). unfold act, bind in H. cbn [sat] in H.
    destruct (negb (c =? c_quote) && negb (iscntrl c)); [|discriminate]. injection H as <- _. cbn. destruct (N.eqb_spec c 92); [contradiction|reflexivity].
Qed.
Lemma str_chr_other : forall d s a r, str_chr c_quote (d :: s) = Ok a r -> d <> 92 -> d <> 34 -> a = [d].
Proof.
  intros d s a r H Hc Hq. unfold str_chr in H. assert (B : ch c_backslash (d :: s) = No) by (apply ch_no; cbn [stops]; unfold c_backslash; apply N.eqb_neq; congruence).
  rewrite alt_no in H by (now apply then_no). rewrite alt_no in H by (now apply then_no). unfold act, bind in H. cbn [sat] in H.
  destruct (negb (d =? c_quote) && negb (iscntrl d)); [|discriminate]. now injection H.
Qed.
Lemma kleene_parity : forall n s l r, kleene_ n (str_chr c_quote) s = Ok l (c_quote :: r) -> parity false (concat l) = false.
Proof.
  induction n as [|n IH]; intros s l r H; [discriminate|]. cbn [kleene_] in H. destruct (str_chr c_quote s) as [a s'| |] eqn:E; [|injection H as <- _; reflexivity|discriminate].
  destruct (kleene_ n (str_chr c_quote) s') as [l' r'| |] eqn:K; try discriminate. injection H as <- ->. specialize (IH _ _ _ K). cbn [concat]. rewrite parity_app.
  destruct (str_chr_cases _ _ _ E) as [->|[-> F] ]; [exact IH|]. change (parity false [92]) with true.
  destruct n as [|n]; [discriminate|]. cbn [kleene_] in K. destruct (str_chr c_quote s') as [a2 s2| |] eqn:E2; [|injection K as <- ->|discriminate].
  - destruct s' as [|d s']; [discriminate|]. destruct (F d s' eq_refl) as [F1 F2]. pose proof (str_chr_other _ _ _ _ E2 F1 F2) as ->.
    destruct (kleene_ n (str_chr c_quote) s2) as [l2 r2| |]; try discriminate. injection K as <- ->. cbn [concat] in *. rewrite parity_app in *.
    replace (parity true [d]) with (parity false [d]); [exact IH|]. cbn. destruct (N.eqb_spec d 92); [contradiction|reflexivity].
  - destruct (F _ _ eq_refl) as [_ F2]. now contradiction F2.
Qed.
Lemma parity_run : forall k b, parity b (repeat 92 k) = xorb b (Nat.odd k).
Proof.
  induction k as [|k IH]; intros b; [cbn; now rewrite xorb_false_r|]. cbn [repeat]. change (parity b (92 :: repeat 92 k)) with (parity (negb b) (repeat 92 k)).
  rewrite IH, Nat.odd_succ, <- Nat.negb_odd. destruct b, (Nat.odd k); reflexivity.
Qed.
Theorem C55_backslash_refuted : forall p k t r, (p = [] \/ exists p' c, p = p' ++ [c] /\ c <> 92) -> Nat.odd k = true -> quoted c_quote t <> Ok (p ++ repeat 92 k) r.
Proof.
  intros p k t r P O H. unfold quoted in H. unfold then_, bind in H. destruct (ch c_quote t) as [c t'| |]; try discriminate. unfold skip_, bind in H.
  destruct (act (@concat N) (kleene (str_chr c_quote)) t') as [x t2| |] eqn:E; try discriminate. unfold act, bind in E.
  destruct (kleene (str_chr c_quote) t') as [l t3| |] eqn:K; try discriminate. injection E as Ex ->. destruct (ch c_quote t2) as [c2 t4| |] eqn:Q; try discriminate.
  injection H as Hx <-. destruct t2 as [|d t2]; [discriminate|]. unfold ch, sat in Q. destruct (N.eqb_spec c_quote d) as [<-|]; [|discriminate].
  apply kleene_parity in K. rewrite Ex, Hx, parity_app, parity_run, O in K.
  assert (Z : parity false p = false). { destruct P as [->|(p' & d & -> & Hd)]; [reflexivity|]. rewrite parity_app. cbn. destruct (N.eqb_spec d 92); [contradiction|reflexivity]. }
  rewrite Z in K. discriminate.
Qed.
(** So the string [a\] prints as [QUOTE a\ QUOTE], which is not read at all. *)
Theorem C55_string_end_refuted : exists s, forall A, exists t, show A (DString s) = Some t /\ data_p A 100 t = No.
Proof. exists (chars "a\"). intros A. eexists. split; reflexivity. Qed.
(** A string with a line break prints with [\x0A], which is read as four characters. *)
Theorem C55_newline_refuted : exists s s', s <> s' /\ forall A, exists t, show A (DString s) = Some t /\ data_p A 100 t = Ok (DString s') [].
Proof. exists [97; 10], (chars "a\x0A"). split; [discriminate|]. intros A. eexists. split; reflexivity. Qed.
(** A pattern with a slash ends at the slash. *)
Theorem C55_slash_refuted : exists s s' r, s <> s' /\ r <> [] /\ forall A, exists t, show A (DPattern s) = Some t /\ data_p A 100 t = Ok (DPattern s') r.
Proof. exists (chars "a/b"), (chars "a"), (chars "b/"). split; [discriminate|]. split; [discriminate|]. intros A. eexists. split; reflexivity. Qed.
(** The smallest integer cannot be printed without overflow. *)
Theorem C55_min_refuted : exists z, (- 2 ^ 63 <= z < 2 ^ 63)%Z /\ forall A, show A (DInt z) = None.
Proof. exists (- 2 ^ 63)%Z. split; [lia|]. intros A. reflexivity. Qed.
(** Counts wrap around: twenty digits above the largest count are another count. *)
Theorem C55_wrap_refuted : exists t, forall A, data_p A 100 t = Ok (DCount 0) [] /\ num t = 2 ^ 64.
Proof. exists (chars "18446744073709551616"). intros A. split; reflexivity. Qed.
(** A count with a suffix wraps, too. *)
Theorem C55_suffix_refuted : exists t, forall A, data_p A 100 t = Ok (DCount 0) [] /\ t = chars "16Ei".
Proof. exists (chars "16Ei"). intros A. split; reflexivity. Qed.
(** An enumeration value is read as a count. *)
Theorem C55_enum_refuted : forall A, exists t, show A (DEnum 3) = Some t /\ data_p A 100 t = Ok (DCount 3) [].
Proof. intros A. eexists. split; reflexivity. Qed.
(** The prefix length of a v4 subnet is not checked, and above 255 it wraps. *)
Theorem C55_prefix_refuted : forall A, exists s s', data_p A 100 (chars "1.2.3.4/33") = Ok (DSubnet s) [] /\ ~ sn_wf s /\
  data_p A 100 (chars "1.2.3.4/264") = Ok (DSubnet s') [] /\ sn_length s' = 8.
Proof.
  intros A. eexists _, _. split; [reflexivity|]. split; [|split; reflexivity]. intros (_ & _ & _ & H). specialize (H eq_refl). apply H. reflexivity.
Qed.
(** The parser reads records without names, but their text is not read back. *)
Theorem C55_unnamed_refuted : forall A, exists d t, data_p A 100 (chars "<1, 2>") = Ok d [] /\ show A d = Some t /\ data_p A 100 t = No.
Proof. intros A. eexists _, _. split; [reflexivity|]. split; reflexivity. Qed.
Lemma more_ignored : forall A n x s d r, duration1 A s = Ok d r -> (d <= 0)%Z -> more_durations A (S n) x s = Ok x r.
Proof. intros A n x s d r H D. cbn [more_durations]. rewrite H. destruct (Z.ltb_spec 0 d); [lia|reflexivity]. Qed.
(** In a compound duration, a component that is not positive is consumed and ignored. *)
Theorem C55_negative_refuted : forall A, (a_dur A {| d_neg := true; d_int := chars "5"; d_frac := [] |} 60000000000 <= 0)%Z ->
  duration_p A (chars "1h-5m") = Ok (a_dur A {| d_neg := false; d_int := chars "1"; d_frac := [] |} 3600000000000%Z) [].
Proof.
  intros A H. unfold duration_p.
  assert (E : duration1 A (chars "1h-5m") = Ok (a_dur A {| d_neg := false; d_int := chars "1"; d_frac := [] |} 3600000000000%Z) (chars "-5m")) by reflexivity.
  assert (E2 : duration1 A (chars "-5m") = Ok (a_dur A {| d_neg := true; d_int := chars "5"; d_frac := [] |} 60000000000%Z) []) by reflexivity.
  rewrite (bind_ok _ _ _ _ _ E). now apply more_ignored with (2 := H).
Qed.

Definition assumptions_literal := (C55_round_trip, C55_whole, C55_different, C55_text, C55_backslash_refuted, C55_string_end_refuted, C55_newline_refuted, C55_slash_refuted,
  C55_min_refuted, C55_wrap_refuted, C55_suffix_refuted, C55_enum_refuted, C55_prefix_refuted, C55_unnamed_refuted, C55_negative_refuted).
Print Assumptions assumptions_literal.
