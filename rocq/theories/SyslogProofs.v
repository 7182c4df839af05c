(** Proofs about [SyslogModel]. *)
From Coq Require Import List ZArith NArith Bool Arith Lia ZifyBool ZifyNat ZifyN.
From Verif Require Import LiteralModel LiteralProofs SyslogModel.
Import ListNotations.
Open Scope N_scope.
Local Notation length := List.length.
Local Notation bytes := (list N).

(** * What parsers accept *)
Definition stops (p : N -> bool) (s : bytes) : Prop := match s with c :: _ => p c = false | [] => True end.
Lemma span_ok : forall p w n r, forallb p w = true -> (length w <= n)%nat -> stops p r -> span p n (w ++ r) = (w, r).
Proof.
  induction w as [|c w IH]; intros n r F L S.
  - cbn [app]. destruct n; [reflexivity|]. destruct r as [|x r]; [reflexivity|]. cbn [span]. cbn in S. rewrite S. reflexivity.
  - destruct n as [|n]; [cbn in L; lia|]. cbn [forallb] in F. apply andb_prop in F as [C F]. cbn [app span]. rewrite C, IH; [reflexivity|assumption|cbn in L; lia|assumption].
Qed.
Lemma word_ok : forall p w n r, forallb p w = true -> w <> [] -> (length w <= n)%nat -> stops p r -> word p n (w ++ r) = Some (w, r).
Proof. intros p w n r F N L S. unfold word. rewrite span_ok by assumption. destruct w; [contradiction|reflexivity]. Qed.
Lemma number_ok : forall x r, x < 1000 -> stops isdigit r -> number (digits x ++ r) = Some (x, r).
Proof.
  intros x r H S. assert (x < 10 ^ 20) as B by (change (10 ^ 20) with 100000000000000000000; lia). destruct (digits_spec x B) as (D1 & D2 & D3).
  assert (length (digits x) <= 3)%nat as L by (apply digits_len; [change (10 ^ N.of_nat 3) with 1000; lia|lia]).
  unfold number. rewrite word_ok; [rewrite D1; reflexivity|assumption| |assumption|assumption]. intros E. rewrite E in D3. cbn in D3. lia.
Qed.
Lemma lit_ok : forall c r, lit c (c :: r) = Some r.
Proof. intros. unfold lit. rewrite N.eqb_refl. reflexivity. Qed.
Lemma nil_no : forall w r, w <> [] -> w <> [45] -> Forall (fun c => c <> 32) w -> nil_ahead (w ++ 32 :: r) = false.
Proof.
  intros w r N1 N2 F. destruct w as [|a [|b w] ]; [contradiction| |].
  - cbn [app]. assert (a <> 45) as A by congruence. unfold nil_ahead. destruct a as [|[[[[[[a|a|]|[a|a|]|]|[[a|a|]|[a|a|]|]|]|[[[a|a|]|[a|a|]|]|[[a|a|]|[a|a|]|]|]|]|[[[[a|a|]|[a|a|]|]|[[a|a|]|[a|a|]|]|]|[[[a|a|]|[a|a|]|]|[[a|a|]|[a|a|]|]|]|]|]|a|]]; try reflexivity; congruence.
  - cbn [app]. assert (b <> 32) as B by (inversion F as [|? ? _ F1]; inversion F1; assumption). unfold nil_ahead.
    destruct (N.eq_dec a 45) as [->|A].
    + destruct (N.eqb b 32) eqn:E; [apply N.eqb_eq in E; congruence|].
      destruct b as [|b]; [reflexivity|]. repeat (destruct b as [b|b|]; try reflexivity; try congruence).
    + destruct a as [|a]; [reflexivity|]. repeat (destruct a as [a|a|]; try reflexivity; try congruence).
Qed.
Lemma graphic_space : forall w, forallb graphic w = true -> Forall (fun c => c <> 32) w.
Proof. intros w H. rewrite forallb_forall in H. apply Forall_forall. intros c I E. apply H in I. subst. discriminate. Qed.

(** * Structured data *)
Definition plain (c : N) : bool := (32 <=? c) && (c <=? 126) && negb (c =? 93) && negb (c =? 34) && negb (c =? 92).
Lemma value_plain : forall c s, plain c = true -> value (c :: s) = value s.
Proof.
  intros c s H. unfold plain in H. assert (In c (map N.of_nat (seq 32 95))) as I.
  { apply in_map_iff. exists (N.to_nat c). split; [apply N2Nat.id|]. apply in_seq. lia. }
  cbn [map seq] in I. repeat (destruct I as [I|I]; [subst c; try discriminate; reflexivity|]). destruct I.
Qed.
Lemma value_end : forall s, value (34 :: s) = 34 :: s.
Proof. reflexivity. Qed.
Lemma value_escaped : forall c s, c = 93 \/ c = 92 \/ c = 34 -> value (92 :: c :: s) = value s.
Proof. intros c s [->|[->| ->] ]; reflexivity. Qed.
(** The text of a value: brackets, quotes and backslashes behind backslashes. *)
Definition escape (v : bytes) : bytes := flat_map (fun c => if (c =? 93) || (c =? 92) || (c =? 34) then [92; c] else [c]) v.
Lemma value_ok : forall v r, Forall (fun c => 32 <= c <= 126) v -> value (escape v ++ 34 :: r) = 34 :: r.
Proof.
  induction v as [|c v IH]; intros r F; [apply value_end|]. inversion F as [|? ? C F']; subst. unfold escape. cbn [flat_map]. fold (escape v).
  destruct ((c =? 93) || (c =? 92) || (c =? 34)) eqn:E.
  - cbn [app]. rewrite value_escaped by lia. apply IH. assumption.
  - cbn [app]. rewrite value_plain by (unfold plain; lia). apply IH. assumption.
Qed.
(** Names of elements and keys of parameters. *)
Definition visible (c : N) : Prop := 33 <= c <= 126.
Definition name (w : bytes) : Prop := w <> [] /\ (length w <= 32)%nat /\ Forall (fun c => visible c /\ c <> 61 /\ c <> 93 /\ c <> 34) w.
Lemma graphic_visible : forall w, forallb graphic w = true <-> Forall visible w.
Proof. intros w. rewrite forallb_forall, Forall_forall. unfold graphic, visible. split; intros H c I; specialize (H c I); lia. Qed.
Lemma name_chars : forall w, Forall (fun c => visible c /\ c <> 61 /\ c <> 93 /\ c <> 34) w -> forallb name_char w = true.
Proof. intros w H. rewrite Forall_forall in H. apply forallb_forall. intros c I. specialize (H c I). unfold name_char, graphic, visible in *. lia. Qed.
Definition param_text (p : bytes * bytes) : bytes := 32 :: fst p ++ 61 :: 34 :: escape (snd p) ++ [34].
Definition param_good (p : bytes * bytes) : Prop := name (fst p) /\ Forall (fun c => 32 <= c <= 126) (snd p).
Lemma parameter_ok : forall p r, param_good p -> parameter (param_text p ++ r) = Some r.
Proof.
  intros [k v] r [(N & L & F) V]. apply name_chars in F. cbn [fst snd] in *. unfold parameter, param_text. cbn [fst snd app]. rewrite lit_ok. cbn [bind].
  rewrite <- app_assoc, word_ok by (assumption || reflexivity). cbn [bind app]. rewrite lit_ok. cbn [bind]. rewrite lit_ok. cbn [bind].
  rewrite <- app_assoc. cbn [app]. rewrite value_ok by assumption. apply lit_ok.
Qed.
Lemma many_ok : forall A (text : A -> bytes) (good : A -> Prop) p, (forall x r, good x -> p (text x ++ r) = Some r) -> (forall x, good x -> text x <> []) ->
  forall xs fuel r, Forall good xs -> p r = None -> (length (concat (map text xs)) <= fuel)%nat -> many fuel p (concat (map text xs) ++ r) = r.
Proof.
  intros A text good p P E. induction xs as [|x xs IH]; intros fuel r F N L.
  - cbn [map concat app]. destruct fuel; [reflexivity|]. cbn [many]. rewrite N. reflexivity.
  - inversion F; subst. cbn [map concat] in *. rewrite app_length in L. pose proof (E x H1) as Ex. destruct (text x) eqn:T; [contradiction|]. rewrite <- T in *.
    assert (length (text x) > 0)%nat by (rewrite T; cbn; lia). destruct fuel as [|fuel]; [lia|]. cbn [many]. rewrite <- app_assoc, P by assumption. apply IH; try assumption. lia.
Qed.
Lemma plus_ok : forall A (text : A -> bytes) (good : A -> Prop) p, (forall x r, good x -> p (text x ++ r) = Some r) -> (forall x, good x -> text x <> []) ->
  forall xs r, xs <> [] -> Forall good xs -> p r = None -> plus p (concat (map text xs) ++ r) = Some r.
Proof.
  intros A text good p P E xs r X F N. destruct xs as [|x xs]; [contradiction|]. inversion F; subst. unfold plus. cbn [map concat]. rewrite <- app_assoc, P by assumption. cbn [bind].
  f_equal. eapply many_ok; try eassumption. rewrite app_length. lia.
Qed.
Definition element_text (e : bytes * list (bytes * bytes)) : bytes := 91 :: fst e ++ concat (map param_text (snd e)) ++ [93].
Definition element_good (e : bytes * list (bytes * bytes)) : Prop := name (fst e) /\ snd e <> [] /\ Forall param_good (snd e).
Lemma element_ok : forall e r, element_good e -> element (element_text e ++ r) = Some r.
Proof.
  intros [i ps] r ((N & L & F) & X & P). apply name_chars in F. cbn [fst snd] in *. unfold element, element_text. cbn [fst snd app]. rewrite lit_ok. cbn [bind].
  rewrite <- app_assoc, word_ok; try assumption.
  - cbn [bind]. rewrite <- app_assoc. rewrite (plus_ok _ param_text param_good parameter); try assumption; [apply lit_ok|apply parameter_ok|discriminate|reflexivity].
  - destruct ps as [|p ps]; [contradiction|]. reflexivity.
Qed.
Lemma structured_ok : forall es r, es <> [] -> Forall element_good es -> stops (fun c => c =? 91) r -> structured (concat (map element_text es) ++ r) = Some r.
Proof.
  intros es r X F S. unfold structured, maybe_nil.
  assert (nil_ahead (concat (map element_text es) ++ r) = false) as -> by (destruct es; [contradiction|reflexivity]).
  rewrite (plus_ok _ element_text element_good element); try assumption; [reflexivity|apply element_ok|discriminate|].
  unfold element, lit. destruct r as [|c r]; [reflexivity|]. cbn in S. rewrite S. reflexivity.
Qed.

(** * What parsers consume *)
Lemma span_inv : forall p n s w r, span p n s = (w, r) -> s = w ++ r /\ forallb p w = true /\ (length w <= n)%nat.
Proof.
  induction n as [|n IH]; intros s w r H; cbn [span] in H; [inversion H; subst; repeat split; cbn; lia|].
  destruct s as [|c s]; [inversion H; subst; repeat split; cbn; lia|]. destruct (p c) eqn:C; [|inversion H; subst; repeat split; cbn; lia].
  destruct (span p n s) as [w' r'] eqn:E. inversion H; subst. destruct (IH _ _ _ E) as (-> & F & L). cbn. rewrite C, F. repeat split. lia.
Qed.
Lemma word_inv : forall p n s w r, word p n s = Some (w, r) -> s = w ++ r /\ forallb p w = true /\ (1 <= length w <= n)%nat.
Proof.
  intros p n s w r H. unfold word in H. destruct (span p n s) as [w' r'] eqn:E. apply span_inv in E as (A & B & C). destruct w' as [|c w']; [discriminate|]. inversion H; subst. repeat split; try assumption; cbn in *; lia.
Qed.
Lemma number_inv : forall s x r, number s = Some (x, r) -> exists w, s = w ++ r /\ forallb isdigit w = true /\ (1 <= length w <= 3)%nat /\ num w = x.
Proof. intros s x r H. unfold number in H. destruct (word isdigit 3 s) as [[w r']|] eqn:E; [|discriminate]. inversion H; subst. apply word_inv in E as (A & B & C). eauto. Qed.
Lemma lit_inv : forall c s r, lit c s = Some r -> s = c :: r.
Proof. intros c s r H. unfold lit in H. destruct s as [|x s]; [discriminate|]. destruct (x =? c) eqn:E; [|discriminate]. apply N.eqb_eq in E. congruence. Qed.
Lemma nil_inv : forall s, nil_ahead s = true -> exists r, s = 45 :: 32 :: r.
Proof.
  intros s H. destruct s as [|a s]; [discriminate|]. destruct (N.eq_dec a 45) as [->|A].
  - destruct s as [|b s]; [discriminate|]. destruct (N.eq_dec b 32) as [->|B]; [eauto|]. exfalso. unfold nil_ahead in H.
    destruct b as [|b]; [discriminate|]. repeat (destruct b as [b|b|]; try discriminate; try congruence).
  - exfalso. unfold nil_ahead in H. destruct a as [|a]; [discriminate|]. repeat (destruct a as [a|a|]; try discriminate; try congruence).
Qed.
Lemma value_inv : forall s, exists w, s = w ++ value s.
Proof.
  assert (forall n s, (length s <= n)%nat -> exists w, s = w ++ value s) as G; [|intros s; apply (G (length s)); lia].
  induction n as [|n IH]; intros s L; [destruct s; [exists []; reflexivity|cbn in L; lia]|]. destruct s as [|c s]; [exists []; reflexivity|].
  destruct (N.eq_dec c 92) as [->|C].
  - destruct s as [|d s]; [exists []; reflexivity|]. cbn [value]. destruct ((d =? 93) || (d =? 92) || (d =? 34)); [|exists []; reflexivity].
    destruct (IH s) as (w & E); [cbn in L; lia|]. exists (92 :: d :: w). cbn. congruence.
  - destruct (plain c) eqn:P.
    + rewrite value_plain by assumption. destruct (IH s) as (w & E); [cbn in L; lia|]. exists (c :: w). cbn. congruence.
    + exists []. cbn [app]. unfold plain in P. cbn [value]. rewrite P. destruct c as [|c]; [reflexivity|]. repeat (destruct c as [c|c|]; try reflexivity; try congruence).
Qed.
Lemma parameter_inv : forall s r, parameter s = Some r -> exists w, s = 32 :: w ++ r.
Proof.
  intros s r H. unfold parameter in H. destruct (lit 32 s) as [s1|] eqn:E1; [|discriminate]. apply lit_inv in E1. subst s. cbn [bind] in H.
  destruct (word name_char 32 s1) as [[k s2]|] eqn:E2; [|discriminate]. apply word_inv in E2 as (-> & _ & _). cbn [bind] in H.
  destruct (lit 61 s2) as [s3|] eqn:E3; [|discriminate]. apply lit_inv in E3. subst s2. cbn [bind] in H.
  destruct (lit 34 s3) as [s4|] eqn:E4; [|discriminate]. apply lit_inv in E4. subst s3. cbn [bind] in H. apply lit_inv in H. destruct (value_inv s4) as (v & E). rewrite H in E.
  exists (k ++ 61 :: 34 :: v ++ [34]). rewrite E, <- app_assoc. cbn [app]. rewrite <- app_assoc. reflexivity.
Qed.
Lemma many_inv : forall p, (forall s r, p s = Some r -> exists w, s = w ++ r) -> forall fuel s, exists w, s = w ++ many fuel p s.
Proof.
  intros p P. induction fuel as [|f IH]; intros s; [exists []; reflexivity|]. cbn [many]. destruct (p s) as [r|] eqn:E; [|exists []; reflexivity].
  apply P in E as (w & ->). destruct (IH r) as (w' & E'). exists (w ++ w'). rewrite <- app_assoc, <- E'. reflexivity.
Qed.
Lemma element_inv : forall s r, element s = Some r -> exists w, s = 91 :: w ++ 93 :: r.
Proof.
  intros s r H. unfold element in H. destruct (lit 91 s) as [s1|] eqn:E1; [|discriminate]. apply lit_inv in E1. subst s. cbn [bind] in H.
  destruct (word name_char 32 s1) as [[k s2]|] eqn:E2; [|discriminate]. apply word_inv in E2 as (-> & _ & _). cbn [bind] in H. unfold plus in H.
  destruct (parameter s2) as [s3|] eqn:E3; [|discriminate]. apply parameter_inv in E3 as (w & ->). cbn [bind] in H. apply lit_inv in H.
  destruct (many_inv parameter) with (fuel := length s3) (s := s3) as (w' & E); [intros s r' Hp; apply parameter_inv in Hp as (x & ->); exists (32 :: x); reflexivity|].
  rewrite H in E. exists (k ++ 32 :: w ++ w'). rewrite E, <- !app_assoc. cbn [app]. rewrite <- !app_assoc. reflexivity.
Qed.
Lemma structured_inv : forall s r, structured s = Some r -> exists w, s = w ++ r /\ ((w = [45] /\ hd 0 r = 32) \/ hd 0 w = 91).
Proof.
  intros s r H. unfold structured, maybe_nil in H. destruct (nil_ahead s) eqn:E.
  - apply nil_inv in E as (r' & ->). inversion H; subst. exists [45]. split; [reflexivity|]. left. auto.
  - unfold plus in H. destruct (element s) as [s1|] eqn:E1; [|discriminate]. apply element_inv in E1 as (w & ->). cbn [bind] in H. inversion H; subst. clear H.
    destruct (many_inv element) with (fuel := length s1) (s := s1) as (w' & E'); [intros s r' Hp; apply element_inv in Hp as (x & ->); exists (91 :: x ++ [93]); cbn; rewrite <- app_assoc; reflexivity|].
    exists (91 :: w ++ 93 :: w'). split; [|right; reflexivity]. cbn [app]. rewrite <- app_assoc. cbn [app]. rewrite <- E'. reflexivity.
Qed.
