(** * Proofs about escaping and unescaping *)

From Coq Require Import NArith ZArith List Bool Lia Arith ZifyBool ZifyNat ZifyN.
From Verif Require Import Base64Proofs EscapeModel.
Import ListNotations.
Open Scope N_scope.

(** ** The loop *)

(** A step function makes progress when it leaves less than it was given. *)
Definition progress (u : list N -> step) : Prop :=
  forall s out rest, u s = Next out rest -> (length rest < length s)%nat.

Lemma loop_fuel : forall u, progress u -> forall s f1 f2 acc,
  (length s <= f1)%nat -> (length s <= f2)%nat ->
  unescape_loop u f1 s acc = unescape_loop u f2 s acc.
Proof.
  intros u P.
  assert (G : forall f1 f2 s acc, (length s <= f1)%nat -> (length s <= f2)%nat ->
    unescape_loop u f1 s acc = unescape_loop u f2 s acc).
  { induction f1 as [|f1 IH]; intros f2 s acc L1 L2.
    - destruct s; [|cbn in L1; lia]. destruct f2; reflexivity.
    - destruct s as [|c s]; [destruct f2; reflexivity|].
      destruct f2 as [|f2]; [cbn in L2; lia|]. cbn [unescape_loop].
      destruct (u (c :: s)) eqn:E; try reflexivity.
      apply P in E. cbn [length] in *. apply IH; lia. }
  intros. now apply G.
Qed.

Lemma loop_step : forall u, progress u -> forall s out rest acc f,
  u s = Next out rest -> (length s <= f)%nat -> s <> [] ->
  unescape_loop u f s acc = unescape_loop u f rest (acc ++ out).
Proof.
  intros u P s out rest acc f E L H.
  destruct s as [|c s]; [congruence|]. destruct f as [|f]; [cbn in L; lia|].
  cbn [unescape_loop]. rewrite E. pose proof (P _ _ _ E) as Q. cbn [length] in *.
  transitivity (unescape_loop u (S f) rest (acc ++ out)).
  - apply loop_fuel; auto; lia.
  - destruct rest; reflexivity.
Qed.

Lemma loop_safe : forall u, progress u -> forall f s acc,
  (forall s, s <> [] -> u s <> Behind) -> (length s <= f)%nat ->
  unescape_loop u f s acc <> Overrun.
Proof.
  intros u P. induction f as [|f IH]; intros s acc B L.
  - destruct s; [discriminate|cbn in L; lia].
  - destruct s as [|c s]; [discriminate|]. cbn [unescape_loop].
    pose proof (B (c :: s) ltac:(discriminate)) as B'.
    destruct (u (c :: s)) eqn:E; try discriminate; [|congruence].
    apply P in E. cbn [length] in *. apply IH; [exact B|lia].
Qed.

Lemma unescape_safe : forall u, progress u ->
  (forall s, s <> [] -> u s <> Behind) ->
  forall s, exists t, unescape u s = Returns t.
Proof.
  intros u P B s. unfold unescape.
  pose proof (loop_safe u P (length s) s [] B (le_n _)) as H.
  destruct (unescape_loop u (length s) s []) as [t|]; [eauto|congruence].
Qed.

(** If the unescaper inverts what the escaper makes of every byte of a class,
    whatever follows, it inverts whole strings over that class. *)
Lemma unescape_escape : forall e u (ok : N -> Prop), progress u ->
  (forall c rest, ok c -> u (e c ++ rest) = Next [c] rest) ->
  forall s, Forall ok s -> unescape u (escape e s) = Returns s.
Proof.
  intros e u ok P H s F. unfold unescape.
  assert (G : forall s, Forall ok s -> forall f acc, (length (escape e s) <= f)%nat ->
    unescape_loop u f (escape e s) acc = Returns (acc ++ s)).
  { clear s F. induction s as [|c s IH]; intros F f acc L.
    - cbn [escape flat_map] in *. rewrite app_nil_r. destruct f; reflexivity.
    - inversion F as [|? ? Hc Fs]; subst. unfold escape in *. cbn [flat_map] in *.
      pose proof (H c (flat_map e s) Hc) as E.
      rewrite (loop_step u P _ _ _ acc f E L).
      + rewrite IH; [|exact Fs|].
        * now rewrite <- app_assoc.
        * pose proof (P _ _ _ E). lia.
      + intros Z. rewrite Z in E. specialize (P _ _ _ E). cbn in P. lia. }
  rewrite (G s F (length (escape e s)) []) by lia. reflexivity.
Qed.

(** ** Hexadecimal *)

Lemma hex_pair : forall c, c < 256 ->
  isxdigit (fst (byte_to_hex c)) = true /\ isxdigit (snd (byte_to_hex c)) = true /\
  hex_to_byte (fst (byte_to_hex c)) (snd (byte_to_hex c)) = c.
Proof.
  intros c H.
  pose proof (check_below 256 (fun c => isxdigit (fst (byte_to_hex c)) &&
    isxdigit (snd (byte_to_hex c)) &&
    (hex_to_byte (fst (byte_to_hex c)) (snd (byte_to_hex c)) =? c))
    ltac:(vm_compute; reflexivity) c H) as K. cbv beta in K.
  apply andb_true_iff in K as [K K3]. apply andb_true_iff in K as [K1 K2].
  apply N.eqb_eq in K3. auto.
Qed.

Lemma hex_unescape_pair : forall c rest, c < 256 ->
  hex_unescaper (fst (byte_to_hex c) :: snd (byte_to_hex c) :: rest) = Next [c] rest.
Proof.
  intros c rest H. destruct (hex_pair c H) as (A & B & C).
  unfold hex_unescaper. now rewrite A, B, C.
Qed.

Lemma hex_progress : forall s out rest, hex_unescaper s = Next out rest ->
  (length rest < length s)%nat.
Proof.
  intros s out rest H. unfold hex_unescaper in H.
  destruct s as [|a [|b s] ]; try discriminate.
  destruct (negb _ || negb _); [discriminate|]. injection H as <- <-. cbn. lia.
Qed.

(** ** Progress and safety of the unescapers *)

Lemma byte_progress : progress byte_unescaper.
Proof.
  intros s out rest H. unfold byte_unescaper in H. destruct s as [|c s]; [discriminate|].
  destruct (negb (c =? c_backslash)).
  { injection H as <- <-. cbn. lia. }
  destruct (_ <? 4)%nat; [discriminate|]. destruct s as [|d s]; [discriminate|].
  destruct (negb (d =? c_x)).
  { injection H as <- <-. cbn. lia. }
  apply hex_progress in H. cbn. lia.
Qed.

Lemma byte_safe : forall s, s <> [] -> byte_unescaper s <> Behind.
Proof.
  intros s N H. unfold byte_unescaper in H. destruct s as [|c s]; [congruence|].
  destruct (negb (c =? c_backslash)); [discriminate|].
  destruct (_ <? 4)%nat eqn:L; [discriminate|]. apply Nat.ltb_ge in L. cbn [length] in L.
  destruct s as [|d s]; [cbn in L; lia|].
  destruct (negb (d =? c_x)); [discriminate|].
  unfold hex_unescaper in H. cbn [length] in L.
  destruct s as [|a [|b s] ]; cbn [length] in L; try lia.
  destruct (negb _ || negb _); discriminate.
Qed.

Lemma percent_progress : progress percent_unescaper.
Proof.
  intros s out rest H. unfold percent_unescaper in H. destruct s as [|c s]; [discriminate|].
  destruct (negb (c =? c_percent)).
  { injection H as <- <-. cbn. lia. }
  destruct (_ <? 3)%nat; [discriminate|].
  apply hex_progress in H. cbn. lia.
Qed.

Lemma percent_safe : forall s, s <> [] -> percent_unescaper s <> Behind.
Proof.
  intros s N H. unfold percent_unescaper in H. destruct s as [|c s]; [congruence|].
  destruct (negb (c =? c_percent)); [discriminate|].
  destruct (_ <? 3)%nat eqn:L; [discriminate|]. apply Nat.ltb_ge in L. cbn [length] in L.
  unfold hex_unescaper in H.
  destruct s as [|a [|b s] ]; cbn [length] in L; try lia.
  destruct (negb _ || negb _); discriminate.
Qed.

Lemma json_progress : progress json_unescaper.
Proof.
  intros s out rest H. unfold json_unescaper in H. destruct s as [|c s]; [discriminate|].
  destruct (c =? c_quote); [discriminate|].
  destruct (negb (c =? c_backslash)).
  { injection H as <- <-. cbn. lia. }
  destruct s as [|d s]; [discriminate|].
  repeat match type of H with
  | (if ?b then Next _ _ else _) = _ =>
    destruct b; [injection H as <- <-; cbn; lia|]
  end.
  destruct (d =? c_u); [|discriminate].
  destruct s as [|b0 [|b1 [|b2 [|b3 s] ] ] ]; try discriminate.
  - destruct (negb _ || negb _); discriminate.
  - destruct (negb (b0 =? _) || _).
    + injection H as <- <-. cbn. lia.
    + destruct (negb _ || negb _); [discriminate|]. injection H as <- <-. cbn. lia.
Qed.

Lemma double_progress : forall esc, progress (double_unescaper esc).
Proof.
  intros esc s out rest H. unfold double_unescaper in H.
  destruct s as [|x [|y s] ]; [discriminate| |].
  - injection H as <- <-. cbn. lia.
  - destruct (_ && _); injection H as <- <-; cbn; lia.
Qed.

Lemma double_safe : forall esc s, s <> [] -> double_unescaper esc s <> Behind.
Proof.
  intros esc s N. unfold double_unescaper. destruct s as [|x [|y s] ]; [congruence|discriminate|].
  destruct (_ && _); discriminate.
Qed.

(** ** One byte *)

Lemma hex_escaper_inv : forall c rest, c < 256 ->
  byte_unescaper (hex_escaper c ++ rest) = Next [c] rest.
Proof.
  intros c rest H. unfold hex_escaper. destruct (byte_to_hex c) as [hi lo] eqn:E.
  cbn [app byte_unescaper]. change (negb (c_backslash =? c_backslash)) with false.
  cbn iota. cbn [length Nat.ltb Nat.leb].
  change (negb (c_x =? c_x)) with false. cbn iota.
  pose proof (hex_unescape_pair c rest H) as P. rewrite E in P. exact P.
Qed.

Lemma print_escaper_inv : forall c rest, c < 256 /\ c <> c_backslash ->
  byte_unescaper (print_escaper c ++ rest) = Next [c] rest.
Proof.
  intros c rest [H N]. unfold print_escaper. destruct (isprint c).
  - cbn [app byte_unescaper]. replace (c =? c_backslash) with false by lia. reflexivity.
  - now apply hex_escaper_inv.
Qed.

Lemma percent_escaper_inv : forall c rest, c < 256 ->
  percent_unescaper (percent_escaper c ++ rest) = Next [c] rest.
Proof.
  intros c rest H. unfold percent_escaper.
  destruct (isalnum c || _ || _ || _ || _) eqn:E.
  - cbn [app percent_unescaper].
    replace (c =? c_percent) with false; [reflexivity|].
    symmetry. apply N.eqb_neq. intros ->. discriminate.
  - destruct (byte_to_hex c) as [hi lo] eqn:B. cbn [app percent_unescaper].
    change (negb (c_percent =? c_percent)) with false. cbn iota.
    cbn [length Nat.ltb Nat.leb].
    pose proof (hex_unescape_pair c rest H) as P. rewrite B in P. exact P.
Qed.

Lemma json_plain : forall c rest, (c =? c_quote) = false -> (c =? c_backslash) = false ->
  json_unescaper (c :: rest) = Next [c] rest.
Proof. intros c rest A B. cbn [json_unescaper]. now rewrite A, B. Qed.

Lemma json_escaper_inv : forall c rest, c < 256 ->
  json_unescaper (json_escaper c ++ rest) = Next [c] rest.
Proof.
  intros c rest H. unfold json_escaper.
  destruct ((c =? c_quote) || (c =? c_backslash)) eqn:Q.
  { apply orb_true_iff in Q as [Q|Q]; apply N.eqb_eq in Q; subst c; reflexivity. }
  apply orb_false_iff in Q as [Q1 Q2].
  repeat match goal with
  | |- context [if c =? ?k then _ else _] =>
    destruct (c =? k) eqn:?;
      [match goal with E : (c =? k) = true |- _ => apply N.eqb_eq in E; subst c end;
       reflexivity|]
  end.
  destruct (negb (iscntrl c)).
  { apply json_plain; assumption. }
  destruct (byte_to_hex c) as [hi lo] eqn:B.
  pose proof (hex_pair c H) as P. rewrite B in P. cbn [fst snd] in P.
  destruct P as (P1 & P2 & P3).
  cbn [app]. change (json_unescaper (c_backslash :: c_u :: c_zero :: c_zero :: hi :: lo :: rest))
    with (if negb (isxdigit hi) || negb (isxdigit lo) then Fail
          else Next [hex_to_byte hi lo] rest).
  now rewrite P1, P2, P3.
Qed.

Lemma last_snoc : forall A (l : list A) x d, last (l ++ [x]) d = x.
Proof. intros A l x d. now rewrite last_last. Qed.

Lemma json_unescape_quoted : forall s,
  json_unescape (c_quote :: s ++ [c_quote]) = unescape json_unescaper s.
Proof.
  intros s. unfold json_unescape.
  destruct (s ++ [c_quote]) as [|c rest] eqn:E; [destruct s; discriminate|].
  rewrite <- E, last_snoc, removelast_last. reflexivity.
Qed.

(** ** Doubling *)

Lemma double_inj : forall esc s1 s2,
  double_escape s1 esc = double_escape s2 esc -> s1 = s2.
Proof.
  intros esc. unfold double_escape, escape.
  assert (one : forall c, double_escaper esc c = [c; c] /\ mem c esc = true \/
                          double_escaper esc c = [c] /\ mem c esc = false).
  { intros c. unfold double_escaper. destruct (mem c esc); auto. }
  induction s1 as [|a s1 IH]; intros [|b s2] E; cbn [flat_map] in E.
  - reflexivity.
  - destruct (one b) as [ [R _] | [R _] ]; rewrite R in E; discriminate.
  - destruct (one a) as [ [R _] | [R _] ]; rewrite R in E; discriminate.
  - destruct (one a) as [ [Ra Ma] | [Ra Ma] ], (one b) as [ [Rb Mb] | [Rb Mb] ];
      rewrite Ra, Rb in E; cbn [app] in E; injection E; intros; subst;
      try congruence; f_equal; now apply IH.
Qed.

Lemma double_escaper_inv : forall esc c rest, mem c esc = true ->
  double_unescaper esc (double_escaper esc c ++ rest) = Next [c] rest.
Proof.
  intros esc c rest H. unfold double_escaper. rewrite H. cbn [app double_unescaper].
  now rewrite H, andb_false_r.
Qed.
