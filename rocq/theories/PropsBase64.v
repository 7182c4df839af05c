(** * C35: Base64 coding

    The specification follows RFC 4648 rather than the code: a text is read as
    a sequence of bits, most significant first, eight to a byte and six to a
    character. *)

From Coq Require Import NArith ZArith List Bool Lia Arith Ascii String ZifyBool ZifyNat ZifyN.
From Verif Require Import Base64Model Base64Proofs.
Import ListNotations.
Open Scope string_scope.
Open Scope list_scope.
Open Scope N_scope.
Notation length := List.length.

(** ** Specification *)

(** The low [w] bits of a number, most significant first. *)
Fixpoint bits (w : nat) (v : N) : list bool :=
  match w with
  | O => []
  | S w => N.testbit v (N.of_nat w) :: bits w v
  end.

(** The bytes of a string literal. *)
Definition text (s : string) : list N := map N_of_ascii (list_ascii_of_string s).

(** Table 1 of RFC 4648: the characters that stand for 0 to 63. *)
Definition digit (v : N) : option N :=
  nth_error (text "ABCDEFGHIJKLMNOPQRSTUVWXYZabcdefghijklmnopqrstuvwxyz0123456789+/")
    (N.to_nat v).

(** A text is the standard encoding of a byte string when it is the characters
    of the bits, in groups of six, completed by zero bits, and then filled with
    equality signs to a multiple of four characters. *)
Definition standard (s t : list N) : Prop :=
  exists vs zeros pads,
    flat_map (bits 8) s ++ repeat false zeros = flat_map (bits 6) vs /\
    (zeros < 6)%nat /\ (pads < 4)%nat /\
    Forall (fun v => v < 64) vs /\
    map Some t = map digit vs ++ repeat (Some 61) pads /\
    (length t mod 4 = 0)%nat.

(** ** Lemmas *)

Lemma bits_byte6 : forall a, a < 256 ->
  bits 8 a = bits 6 (a / 4) ++ bits 2 (a mod 4).
Proof.
  intros a H.
  pose proof (check_below 256 (fun a => if list_eq_dec bool_dec (bits 8 a)
    (bits 6 (a / 4) ++ bits 2 (a mod 4)) then true else false)
    ltac:(vm_compute; reflexivity) a H) as K. cbv beta in K.
  destruct list_eq_dec; [assumption|discriminate].
Qed.

Lemma bits_byte4 : forall a, a < 256 ->
  bits 8 a = bits 4 (a / 16) ++ bits 4 (a mod 16).
Proof.
  intros a H.
  pose proof (check_below 256 (fun a => if list_eq_dec bool_dec (bits 8 a)
    (bits 4 (a / 16) ++ bits 4 (a mod 16)) then true else false)
    ltac:(vm_compute; reflexivity) a H) as K. cbv beta in K.
  destruct list_eq_dec; [assumption|discriminate].
Qed.

Lemma bits_byte2 : forall a, a < 256 ->
  bits 8 a = bits 2 (a / 64) ++ bits 6 (a mod 64).
Proof.
  intros a H.
  pose proof (check_below 256 (fun a => if list_eq_dec bool_dec (bits 8 a)
    (bits 2 (a / 64) ++ bits 6 (a mod 64)) then true else false)
    ltac:(vm_compute; reflexivity) a H) as K. cbv beta in K.
  destruct list_eq_dec; [assumption|discriminate].
Qed.

Lemma bits_24 : forall v, v < 64 -> bits 6 v = bits 2 (v / 16) ++ bits 4 (v mod 16).
Proof.
  intros a H.
  pose proof (check_below 64 (fun a => if list_eq_dec bool_dec (bits 6 a)
    (bits 2 (a / 16) ++ bits 4 (a mod 16)) then true else false)
    ltac:(vm_compute; reflexivity) a H) as K. cbv beta in K.
  destruct list_eq_dec; [assumption|discriminate].
Qed.

Lemma bits_42 : forall v, v < 64 -> bits 6 v = bits 4 (v / 4) ++ bits 2 (v mod 4).
Proof.
  intros a H.
  pose proof (check_below 64 (fun a => if list_eq_dec bool_dec (bits 6 a)
    (bits 4 (a / 4) ++ bits 2 (a mod 4)) then true else false)
    ltac:(vm_compute; reflexivity) a H) as K. cbv beta in K.
  destruct list_eq_dec; [assumption|discriminate].
Qed.

Lemma digit_alphabet : forall v, v < 64 -> Some (alphabet v) = digit v.
Proof.
  intros v H.
  pose proof (check_below 64 (fun v => match digit v with
    | Some d => alphabet v =? d | None => false end)
    ltac:(vm_compute; reflexivity) v H) as K. cbv beta in K.
  destruct (digit v); [|discriminate]. apply N.eqb_eq in K. now subst.
Qed.

Lemma join_24 : forall x y, x < 4 -> y < 16 ->
  bits 6 (x * 16 + y) = bits 2 x ++ bits 4 y.
Proof.
  intros x y Hx Hy. rewrite bits_24 by lia.
  replace ((x * 16 + y) / 16) with x by lia.
  replace ((x * 16 + y) mod 16) with y by lia. reflexivity.
Qed.

Lemma join_42 : forall x y, x < 16 -> y < 4 ->
  bits 6 (y + x * 4) = bits 4 x ++ bits 2 y.
Proof.
  intros x y Hx Hy. rewrite bits_42 by lia.
  replace ((y + x * 4) / 4) with x by lia.
  replace ((y + x * 4) mod 4) with y by lia. reflexivity.
Qed.

(** ** Theorems *)

(** The encoding of every byte string is the one of the standard. *)
Theorem C35_standard : forall s, bytes s -> standard s (encode s).
Proof.
  intros s. pattern s. apply three_induction.
  - intros _. exists [], 0%nat, 0%nat. repeat split; auto; lia.
  - intros a H. inversion H as [|? ? Ha _]; subst. cbn [encode].
    rewrite m252, m3 by assumption.
    exists [a / 4; (a mod 4) * 16 + 0], 4%nat, 2%nat.
    split.
    { cbn [flat_map]. rewrite join_24, bits_byte6 by lia.
      rewrite !app_nil_r, <- !app_assoc. reflexivity. }
    split; [lia|]. split; [lia|]. split; [repeat constructor; lia|].
    split; [|reflexivity].
    cbn [map app repeat]. rewrite N.add_0_r.
    rewrite <- !digit_alphabet by lia. reflexivity.
  - intros a b H. inversion H as [|? ? Ha H']; subst. inversion H' as [|? ? Hb ?]; subst.
    cbn [encode]. rewrite m252, m3, m240, m15 by assumption.
    exists [a / 4; (a mod 4) * 16 + b / 16; 0 + (b mod 16) * 4], 2%nat, 1%nat.
    split.
    { cbn [flat_map]. rewrite join_24, join_42, bits_byte6, (bits_byte4 b) by lia.
      rewrite !app_nil_r, <- !app_assoc. reflexivity. }
    split; [lia|]. split; [lia|]. split; [repeat constructor; lia|].
    split; [|reflexivity].
    cbn [map app repeat]. rewrite N.add_0_l.
    rewrite <- !digit_alphabet by lia. reflexivity.
  - clear s. intros a b c s IH H. inversion H as [|? ? Ha H']; subst.
    inversion H' as [|? ? Hb H'']; subst. inversion H'' as [|? ? Hc Hs]; subst.
    cbn [encode]. rewrite m252, m3, m240, m192, m15, m63 by assumption.
    destruct (IH Hs) as (vs & zeros & pads & B & Z & P & F & M & L).
    exists (a / 4 :: (a mod 4) * 16 + b / 16 :: c / 64 + (b mod 16) * 4 :: c mod 64 :: vs),
      zeros, pads.
    split.
    { cbn [flat_map]. rewrite <- !app_assoc, B.
      rewrite join_24, join_42, bits_byte6, (bits_byte4 b), (bits_byte2 c) by lia.
      rewrite <- !app_assoc. reflexivity. }
    split; [exact Z|]. split; [exact P|].
    split; [repeat (constructor; [lia|]); exact F|].
    split.
    { cbn [map app]. rewrite M, <- !digit_alphabet by lia. reflexivity. }
    cbn [length].
    replace (S (S (S (S (length (encode s)))))) with (length (encode s) + 1 * 4)%nat by lia.
    now rewrite Nat.mod_add by discriminate.
Qed.

(** Encoding a byte string succeeds within the buffer reserved for it and
    yields exactly the predicted number of characters. *)
Theorem C35_length : forall s,
  encode_string s = Some (encode s) /\
  length (encode s) = encoded_size (length s).
Proof.
  intros s. unfold encode_string. rewrite encode_length, Nat.leb_refl. auto.
Qed.

(** Decoding the encoding of a byte string returns the byte string, whatever the
    working array holds initially, and does not leave the buffer. *)
Theorem C35_round_trip : forall junk s t,
  bytes s -> encode_string s = Some t -> decode_string junk t = Some s.
Proof.
  intros junk s t H E. destruct (C35_length s) as [E' L].
  rewrite E' in E. injection E as <-.
  unfold decode_string. rewrite decode_encode by exact H.
  replace (length s <=? decoded_size (length (encode s)))%nat with true; [reflexivity|].
  symmetry. apply Nat.leb_le. rewrite L. unfold encoded_size, decoded_size. lia.
Qed.

(** Different byte strings have different encodings. *)
Theorem C35_injective : forall s1 s2, bytes s1 -> bytes s2 ->
  encode s1 = encode s2 -> s1 = s2.
Proof.
  intros s1 s2 H1 H2 E.
  pose proof (decode_encode 0 s1 H1) as D1. pose proof (decode_encode 0 s2 H2) as D2.
  rewrite E in D1. rewrite D1 in D2. now injection D2.
Qed.

(** Any text whose length is a multiple of four, well-formed or not, is decoded
    within the buffer to a byte string. *)
Theorem C35_decode_total : forall junk t, (length t mod 4 = 0)%nat ->
  exists s, decode_string junk t = Some s /\ bytes s.
Proof.
  intros junk t H. unfold decode_string, decode_raw.
  pose proof (decode_loop_bytes junk t []) as B.
  destruct (decode_loop junk [] t) as [out n] eqn:D.
  exists out. split; [|exact B].
  apply decode_loop_sizes in D; [|cbn; lia]. cbn [length] in D.
  replace (length out <=? decoded_size (length t))%nat with true; [reflexivity|].
  symmetry. apply Nat.leb_le. unfold decoded_size. lia.
Qed.

(** What the working array holds initially never shows. *)
Theorem C35_no_leak : forall j1 j2 t, decode_string j1 t = decode_string j2 t.
Proof.
  intros j1 j2 t. unfold decode_string, decode_raw.
  rewrite (decode_loop_junk j1 j2); [reflexivity|cbn; lia].
Qed.

(** The buffer reserved for decoding is too small for texts without the filling
    equality signs, which many producers leave out: the decoder writes behind
    its end. *)
Lemma decode_all_read : forall junk t c4, (length c4 <= 3)%nat ->
  Forall (fun ch => exists v, v < 64 /\ ch = alphabet v) t ->
  snd (decode_loop junk c4 t) = length t.
Proof.
  intros junk. induction t as [|ch t IH]; intros c4 Hc H; [reflexivity|].
  inversion H as [|? ? (v & Hv & ->) Ht]; subst.
  rewrite decode_step by exact Hv.
  destruct c4 as [|v0 [|v1 [|v2 [|v3 c4] ] ] ]; cbn [app].
  - specialize (IH [v] ltac:(cbn; lia) Ht).
    destruct (decode_loop junk [v] t). cbn [snd length] in *. now rewrite IH.
  - specialize (IH [v0; v] ltac:(cbn; lia) Ht).
    destruct (decode_loop junk [v0; v] t). cbn [snd length] in *. now rewrite IH.
  - specialize (IH [v0; v1; v] ltac:(cbn; lia) Ht).
    destruct (decode_loop junk [v0; v1; v] t). cbn [snd length] in *. now rewrite IH.
  - specialize (IH [] ltac:(cbn; lia) Ht).
    destruct (decode_loop junk [] t). cbn [snd length] in *. now rewrite IH.
  - cbn in Hc. lia.
Qed.

Theorem C35_unpadded_overflows : forall junk t,
  Forall (fun ch => exists v, v < 64 /\ digit v = Some ch) t ->
  (2 <= length t mod 4)%nat -> decode_string junk t = None.
Proof.
  intros junk t H L. unfold decode_string, decode_raw.
  assert (A : Forall (fun ch => exists v, v < 64 /\ ch = alphabet v) t).
  { eapply Forall_impl; [|exact H]. intros ch (v & Hv & E).
    exists v. split; [exact Hv|]. rewrite <- digit_alphabet in E by exact Hv.
    now injection E. }
  pose proof (decode_all_read junk t [] ltac:(cbn; lia) A) as R.
  destruct (decode_loop junk [] t) as [out n] eqn:D. cbn [snd] in R.
  apply decode_loop_sizes in D; [|cbn; lia]. cbn [length Nat.add] in D. subst n.
  replace (length out <=? decoded_size (length t))%nat with false; [reflexivity|].
  symmetry. apply Nat.leb_gt. unfold decoded_size. lia.
Qed.

Theorem C35_decode_safe_refuted : exists t,
  bytes t /\ forall junk, decode_string junk t = None.
Proof.
  exists (text "QUI"). split.
  - repeat constructor.
  - reflexivity.
Qed.

(** ** Examples *)

Example C35_round_trip_example :
  let s := text "VAST" ++ [0; 255; 128] in
  bytes s /\ encode_string s = Some (text "VkFTVAD/gA==") /\
  decode_string 7 (text "VkFTVAD/gA==") = Some s.
Proof. vm_compute. repeat split; repeat constructor. Qed.

Example C35_decode_total_example :
  decode_string 0 (text "VkF!VA==") = Some (text "VA") /\
  decode_string 0 (text "====") = Some [].
Proof. vm_compute. auto. Qed.

Example C35_unpadded_example :
  Forall (fun ch => exists v, v < 64 /\ digit v = Some ch) (text "VkFTVA") /\
  (2 <= length (text "VkFTVA") mod 4)%nat /\
  decode_raw 0 (text "VkFTVA") = (text "VAST", 6%nat) /\
  decoded_size (length (text "VkFTVA")) = 3%nat.
Proof.
  split; [|vm_compute; auto].
  repeat (constructor;
    [match goal with |- exists v, _ /\ digit v = Some ?c =>
       let r := eval vm_compute in (inverse c) in
       match r with Some ?v => exists v; split; reflexivity end end|]).
  constructor.
Qed.

Definition assumptions_Base64 :=
  (C35_standard, C35_length, C35_round_trip, C35_injective, C35_decode_total,
   C35_no_leak, C35_unpadded_overflows, C35_decode_safe_refuted).
Print Assumptions assumptions_Base64.
