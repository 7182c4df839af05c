(** * C36: escaping and unescaping of strings *)

From Coq Require Import NArith ZArith List Bool Lia Arith Ascii String ZifyBool ZifyNat ZifyN.
From Verif Require Import Base64Proofs EscapeModel EscapeProofs.
Import ListNotations.
Open Scope string_scope.
Open Scope list_scope.
Open Scope N_scope.
Notation length := List.length.

(** ** Specification *)

(** The bytes of a string literal. *)
Definition lit (s : string) : list N := map N_of_ascii (list_ascii_of_string s).

(** What section 7 of RFC 8259 allows to stand for a single character: the
    character itself unless it is a quotation mark, a backslash or a control
    character; a two-character escape; or the four-digit form. *)
Inductive json_char : list N -> N -> Prop :=
| json_itself : forall c,
    c <> 34 -> c <> 92 -> 32 <= c -> json_char [c] c
| json_two : forall letter c,
    In (letter, c) [(34, 34); (92, 92); (47, 47); (98, 8); (102, 12); (110, 10);
                    (114, 13); (116, 9)] ->
    json_char [92; letter] c
| json_four : forall h l hi lo,
    nth_error (lit "0123456789ABCDEF") (N.to_nat h) = Some hi ->
    nth_error (lit "0123456789ABCDEF") (N.to_nat l) = Some lo ->
    json_char (lit "\u00" ++ [hi; lo]) (h * 16 + l).

(** What section 2.1 of RFC 3986 makes of a single byte. *)
Definition uri_char (piece : list N) (c : N) : Prop :=
  (piece = [c] /\
   In c (lit "ABCDEFGHIJKLMNOPQRSTUVWXYZabcdefghijklmnopqrstuvwxyz0123456789-._~")) \/
  (~ In c (lit "ABCDEFGHIJKLMNOPQRSTUVWXYZabcdefghijklmnopqrstuvwxyz0123456789-._~") /\
   exists h l hi lo, c = h * 16 + l /\
     nth_error (lit "0123456789ABCDEF") (N.to_nat h) = Some hi /\
     nth_error (lit "0123456789ABCDEF") (N.to_nat l) = Some lo /\
     piece = [37; hi; lo]).

(** The form [\xHH] of a byte. *)
Definition hex_char (piece : list N) (c : N) : Prop :=
  exists h l hi lo, c = h * 16 + l /\
    nth_error (lit "0123456789ABCDEF") (N.to_nat h) = Some hi /\
    nth_error (lit "0123456789ABCDEF") (N.to_nat l) = Some lo /\
    piece = lit "\x" ++ [hi; lo].

(** A text made of one piece for every byte. *)
Definition made_of (form : list N -> N -> Prop) (t s : list N) : Prop :=
  exists pieces, t = List.concat pieces /\ Forall2 form pieces s.

(** ** Lemmas *)

Lemma made_of_escape : forall e (form : list N -> N -> Prop) s,
  (forall c, c < 256 -> form (e c) c) -> bytes s -> made_of form (escape e s) s.
Proof.
  intros e form s H B. exists (map e s). split.
  - unfold escape. now rewrite flat_map_concat_map.
  - induction s as [|c s IH]; [constructor|].
    inversion B; subst. constructor; auto.
Qed.

Lemma hex_digits : forall c, c < 256 ->
  c = (c / 16) * 16 + c mod 16 /\
  nth_error (lit "0123456789ABCDEF") (N.to_nat (c / 16)) = Some (fst (byte_to_hex c)) /\
  nth_error (lit "0123456789ABCDEF") (N.to_nat (c mod 16)) = Some (snd (byte_to_hex c)).
Proof.
  intros c H. split; [lia|].
  pose proof (check_below 256 (fun c =>
    match nth_error (lit "0123456789ABCDEF") (N.to_nat (c / 16)),
          nth_error (lit "0123456789ABCDEF") (N.to_nat (c mod 16)) with
    | Some a, Some b => (a =? fst (byte_to_hex c)) && (b =? snd (byte_to_hex c))
    | _, _ => false
    end) ltac:(vm_compute; reflexivity) c H) as K. cbv beta in K.
  destruct (nth_error _ _) as [a|]; [|discriminate].
  destruct (nth_error _ _) as [b|]; [|discriminate].
  apply andb_true_iff in K as [K1 K2]. apply N.eqb_eq in K1, K2. subst. auto.
Qed.

(** ** Theorems: escaped texts have the form they should *)

(** Escaping every byte writes each as [\xHH]. *)
Theorem C36_byte_all_form : forall s, bytes s -> made_of hex_char (byte_escape_all s) s.
Proof.
  intros s. apply made_of_escape. intros c H. unfold hex_char.
  destruct (hex_digits c H) as (A & B & C).
  exists (c / 16), (c mod 16), (fst (byte_to_hex c)), (snd (byte_to_hex c)).
  repeat split; auto.
Qed.

(** Escaping the bytes that cannot be printed leaves the others alone and
    produces a printable text. *)
Theorem C36_byte_form : forall s, bytes s ->
  made_of (fun piece c => (32 <= c <= 126 /\ piece = [c]) \/
                          (~ 32 <= c <= 126 /\ hex_char piece c)) (byte_escape s) s /\
  Forall (fun c => 32 <= c <= 126) (byte_escape s).
Proof.
  assert (One : forall c, c < 256 ->
    (32 <= c <= 126 /\ print_escaper c = [c]) \/
    (~ 32 <= c <= 126 /\ hex_char (print_escaper c) c)).
  { intros c H. unfold print_escaper, isprint.
    destruct ((32 <=? c) && (c <=? 126)) eqn:E; [left; split; [lia|reflexivity]|].
    right. split; [lia|]. unfold hex_char.
    destruct (hex_digits c H) as (A & B & C).
    exists (c / 16), (c mod 16), (fst (byte_to_hex c)), (snd (byte_to_hex c)).
    repeat split; auto. }
  intros s B. split; [now apply made_of_escape|].
  apply Forall_forall. intros x Hx. unfold byte_escape, escape in Hx.
  apply in_flat_map in Hx as (c & Hc & Hx).
  unfold bytes in B. rewrite Forall_forall in B. specialize (B c Hc). cbv beta in B.
  pose proof (check_below 256
    (fun c => forallb (fun x => (32 <=? x) && (x <=? 126)) (print_escaper c))
    ltac:(vm_compute; reflexivity) c B) as K. cbv beta in K.
  rewrite forallb_forall in K. specialize (K x Hx). lia.
Qed.

(** A JSON-escaped text is a quoted string of characters in the forms RFC 8259
    allows, in the order of the bytes they stand for. *)
Theorem C36_json_form : forall s, bytes s ->
  exists t, json_escape s = 34 :: t ++ [34] /\ made_of json_char t s.
Proof.
  intros s B. exists (escape json_escaper s). split; [reflexivity|].
  apply made_of_escape; [|exact B]. clear s B. intros c H. unfold json_escaper.
  destruct ((c =? c_quote) || (c =? c_backslash)) eqn:Q.
  { apply orb_true_iff in Q as [Q|Q]; apply N.eqb_eq in Q; subst c;
      apply json_two; cbn [In]; auto. }
  apply orb_false_iff in Q as [Q1 Q2]. apply N.eqb_neq in Q1, Q2.
  repeat match goal with
  | |- context [if c =? ?k then _ else _] =>
    destruct (c =? k) eqn:?;
      [match goal with E : (c =? k) = true |- _ => apply N.eqb_eq in E; subst c end;
       apply json_two; cbn [In]; auto 10|]
  end.
  destruct (negb (iscntrl c)) eqn:E.
  { apply json_itself; [exact Q1|exact Q2|]. unfold iscntrl in E. lia. }
  destruct (hex_digits c H) as (A & B & C).
  destruct (byte_to_hex c) as [hi lo]. cbn [fst snd] in *.
  rewrite A. change [c_backslash; c_u; c_zero; c_zero; hi; lo]
    with (lit "\u00" ++ [hi; lo]).
  now apply json_four.
Qed.

(** Percent-escaping leaves exactly the unreserved characters alone. *)
Theorem C36_percent_form : forall s, bytes s -> made_of uri_char (percent_escape s) s.
Proof.
  intros s. apply made_of_escape. intros c H. unfold percent_escaper, uri_char.
  set (unreserved :=
    lit "ABCDEFGHIJKLMNOPQRSTUVWXYZabcdefghijklmnopqrstuvwxyz0123456789-._~").
  assert (K : (isalnum c || (c =? 45) || (c =? 95) || (c =? 46) || (c =? 126))
              = existsb (N.eqb c) unreserved).
  { pose proof (check_below 256 (fun c => Bool.eqb
      (isalnum c || (c =? 45) || (c =? 95) || (c =? 46) || (c =? 126))
      (existsb (N.eqb c) unreserved)) ltac:(vm_compute; reflexivity) c H) as K.
    cbv beta in K. now apply eqb_prop in K. }
  rewrite K. destruct (existsb (N.eqb c) unreserved) eqn:E.
  - left. split; [reflexivity|]. apply existsb_exists in E as (x & Hx & Ex).
    apply N.eqb_eq in Ex. now subst x.
  - right. split.
    + intros I. assert (existsb (N.eqb c) unreserved = true); [|congruence].
      apply existsb_exists. exists c. split; [exact I|apply N.eqb_refl].
    + destruct (hex_digits c H) as (A & B & C).
      exists (c / 16), (c mod 16), (fst (byte_to_hex c)), (snd (byte_to_hex c)).
      repeat split; auto.
Qed.

(** ** Theorems: unescaping inverts escaping *)

Theorem C36_byte_all_round_trip : forall s, bytes s ->
  byte_unescape (byte_escape_all s) = Returns s.
Proof.
  intros s B. apply (unescape_escape hex_escaper byte_unescaper (fun c => c < 256)).
  - exact byte_progress.
  - intros. now apply hex_escaper_inv.
  - exact B.
Qed.

(** Escaping only what cannot be printed is inverted for every byte string
    without a backslash. *)
Theorem C36_byte_round_trip : forall s, bytes s -> ~ In 92 s ->
  byte_unescape (byte_escape s) = Returns s.
Proof.
  intros s B H.
  apply (unescape_escape print_escaper byte_unescaper (fun c => c < 256 /\ c <> c_backslash)).
  - exact byte_progress.
  - intros. now apply print_escaper_inv.
  - apply Forall_forall. intros c Hc. unfold bytes in B. rewrite Forall_forall in B.
    split; [now apply B|]. intros ->. contradiction.
Qed.

Theorem C36_json_round_trip : forall s, bytes s ->
  json_unescape (json_escape s) = Returns s.
Proof.
  intros s B. unfold json_escape. rewrite json_unescape_quoted.
  apply (unescape_escape json_escaper json_unescaper (fun c => c < 256)).
  - exact json_progress.
  - intros. now apply json_escaper_inv.
  - exact B.
Qed.

Theorem C36_percent_round_trip : forall s, bytes s ->
  percent_unescape (percent_escape s) = Returns s.
Proof.
  intros s B. apply (unescape_escape percent_escaper percent_unescaper (fun c => c < 256)).
  - exact percent_progress.
  - intros. now apply percent_escaper_inv.
  - exact B.
Qed.

(** Doubling loses nothing: different strings have different doublings. Undoing
    it works for strings made of doubled characters only. *)
Theorem C36_double_injective : forall esc s1 s2,
  double_escape s1 esc = double_escape s2 esc -> s1 = s2.
Proof. exact double_inj. Qed.

Theorem C36_double_round_trip_special : forall esc s,
  Forall (fun c => In c esc) s ->
  double_unescape (double_escape s esc) esc = Returns s.
Proof.
  intros esc s H.
  apply (unescape_escape (double_escaper esc) (double_unescaper esc)
           (fun c => mem c esc = true)).
  - apply double_progress.
  - intros. now apply double_escaper_inv.
  - eapply Forall_impl; [|exact H]. intros c Hc. unfold mem. apply existsb_exists.
    exists c. split; [exact Hc|apply N.eqb_refl].
Qed.

(** ** Theorems: unescaping arbitrary texts stays within them *)

Theorem C36_byte_safe : forall s, exists t, byte_unescape s = Returns t.
Proof. apply unescape_safe; [exact byte_progress|exact byte_safe]. Qed.

Theorem C36_percent_safe : forall s, exists t, percent_unescape s = Returns t.
Proof. apply unescape_safe; [exact percent_progress|exact percent_safe]. Qed.

Theorem C36_double_safe : forall s esc, exists t, double_unescape s esc = Returns t.
Proof. intros s esc. apply unescape_safe; [apply double_progress|apply double_safe]. Qed.

(** ** What does not hold *)

(** Backslashes are printable and therefore not escaped: a single one does not
    come back, and two different strings look the same. *)
Theorem C36_byte_round_trip_refuted : exists s, bytes s /\
  byte_unescape (byte_escape s) <> Returns s.
Proof. exists (lit "\"). split; [repeat constructor|discriminate]. Qed.

Theorem C36_byte_injective_refuted : exists s1 s2, bytes s1 /\ bytes s2 /\
  s1 <> s2 /\ byte_escape s1 = byte_escape s2.
Proof.
  exists [0], (lit "\x00"). repeat split; try (repeat constructor).
  discriminate.
Qed.

(** Escaping extra characters is not undone when one of them is among the last
    three characters. *)
Theorem C36_extra_round_trip_refuted : exists s extra, bytes s /\ ~ In 92 s /\
  byte_unescape (byte_escape_extra s extra) <> Returns s.
Proof.
  exists (lit "a|b"), (lit "|"). repeat split; try (repeat constructor); try discriminate.
  cbn [lit map list_ascii_of_string In]. intuition discriminate.
Qed.

(** Undoing the doubling drops every second of the characters that were not
    doubled. *)
Theorem C36_double_round_trip_refuted : exists s esc,
  double_unescape (double_escape s esc) esc = Returns (lit "vs") /\ s = lit "vast".
Proof. exists (lit "vast"), (lit "|"). split; reflexivity. Qed.

(** A four-digit escape that is cut short by the closing quote makes the JSON
    unescaper run past the end of its input. *)
Theorem C36_json_safe_refuted : exists s, bytes s /\ json_unescape s = Overrun.
Proof. exists (34 :: lit "\u12a" ++ [34]). split; [repeat constructor|reflexivity]. Qed.

(** ** Examples *)

Example C36_forms_example :
  let s := lit "a b\" ++ [34; 10; 0; 255] in
  bytes s /\
  json_escape s = 34 :: lit "a b\\\" ++ [34] ++ lit "\n\u0000" ++ [255; 34] /\
  percent_escape s = lit "a%20b%5C%22%0A%00%FF" /\
  byte_escape s = lit "a b\" ++ [34] ++ lit "\x0A\x00\xFF" /\
  json_unescape (json_escape s) = Returns s /\
  percent_unescape (percent_escape s) = Returns s /\
  byte_unescape (byte_escape_all s) = Returns s.
Proof. vm_compute. repeat split; repeat constructor. Qed.

Example C36_byte_example :
  let s := lit "tab" ++ [9] in
  bytes s /\ ~ In 92 s /\ byte_unescape (byte_escape s) = Returns s.
Proof.
  split; [repeat constructor|]. split; [|reflexivity].
  vm_compute. intuition discriminate.
Qed.

Example C36_double_example :
  double_escape (lit "a|b") (lit "|") = lit "a||b" /\
  Forall (fun c => In c (lit "|")) (lit "||") /\
  double_unescape (double_escape (lit "||") (lit "|")) (lit "|") = Returns (lit "||").
Proof. vm_compute. repeat split; repeat constructor. Qed.

Definition assumptions_Escape :=
  (C36_byte_all_form, C36_byte_form, C36_json_form, C36_percent_form,
   C36_byte_all_round_trip, C36_byte_round_trip, C36_json_round_trip,
   C36_percent_round_trip, C36_double_injective, C36_double_round_trip_special,
   C36_byte_safe, C36_percent_safe, C36_double_safe,
   C36_byte_round_trip_refuted, C36_byte_injective_refuted,
   C36_extra_round_trip_refuted, C36_double_round_trip_refuted,
   C36_json_safe_refuted).
Print Assumptions assumptions_Escape.
