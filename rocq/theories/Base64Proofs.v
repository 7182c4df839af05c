(** * Proofs about Base64 coding *)

From Coq Require Import NArith ZArith List Bool Lia Arith ZifyBool ZifyNat ZifyN.
From Verif Require Import Base64Model.
Import ListNotations.
Open Scope N_scope.

(** A check of every number below a bound settles the claim for all of them. *)
Lemma check_below : forall n (P : N -> bool),
  forallb P (map N.of_nat (seq 0 n)) = true ->
  forall b, b < N.of_nat n -> P b = true.
Proof.
  intros n P H b Hb. rewrite forallb_forall in H. apply H.
  apply in_map_iff. exists (N.to_nat b). split; [lia|].
  apply in_seq. lia.
Qed.


Lemma eq_below : forall n (f g : N -> N),
  forallb (fun b => f b =? g b) (map N.of_nat (seq 0 n)) = true ->
  forall b, b < N.of_nat n -> f b = g b.
Proof.
  intros n f g H b Hb. apply N.eqb_eq.
  exact (check_below n (fun b => f b =? g b) H b Hb).
Qed.

Lemma m252 : forall b, b < 256 -> N.shiftr (N.land b 252) 2 = b / 4.
Proof. apply (eq_below 256); vm_compute; reflexivity. Qed.
Lemma m3 : forall b, b < 256 -> N.shiftl (N.land b 3) 4 = (b mod 4) * 16.
Proof. apply (eq_below 256); vm_compute; reflexivity. Qed.
Lemma m240 : forall b, b < 256 -> N.shiftr (N.land b 240) 4 = b / 16.
Proof. apply (eq_below 256); vm_compute; reflexivity. Qed.
Lemma m192 : forall b, b < 256 -> N.shiftr (N.land b 192) 6 = b / 64.
Proof. apply (eq_below 256); vm_compute; reflexivity. Qed.
Lemma m15 : forall b, b < 256 -> N.shiftl (N.land b 15) 2 = (b mod 16) * 4.
Proof. apply (eq_below 256); vm_compute; reflexivity. Qed.
Lemma m63 : forall b, b < 256 -> N.land b 63 = b mod 64.
Proof. apply (eq_below 256); vm_compute; reflexivity. Qed.

Lemma d0 : forall v, v < 64 -> N.shiftl v 2 = v * 4.
Proof. apply (eq_below 64); vm_compute; reflexivity. Qed.
Lemma d48 : forall v, v < 64 -> N.shiftr (N.land v 48) 4 = v / 16.
Proof. apply (eq_below 64); vm_compute; reflexivity. Qed.
Lemma d15 : forall v, v < 64 -> N.shiftl (N.land v 15) 4 = (v mod 16) * 16.
Proof. apply (eq_below 64); vm_compute; reflexivity. Qed.
Lemma d60 : forall v, v < 64 -> N.shiftr (N.land v 60) 2 = v / 4.
Proof. apply (eq_below 64); vm_compute; reflexivity. Qed.
Lemma d3 : forall v, v < 64 -> N.shiftl (N.land v 3) 6 = (v mod 4) * 64.
Proof. apply (eq_below 64); vm_compute; reflexivity. Qed.

Lemma inverse_alphabet : forall i, i < 64 -> inverse (alphabet i) = Some i.
Proof.
  intros i Hi.
  pose proof (check_below 64
    (fun i => match inverse (alphabet i) with Some j => j =? i | None => false end)
    ltac:(vm_compute; reflexivity) i Hi) as H.
  cbv beta in H. destruct (inverse (alphabet i)); [|discriminate].
  apply N.eqb_eq in H. now subst.
Qed.

Lemma alphabet_not_pad : forall i, i < 64 -> (alphabet i =? pad) = false.
Proof.
  intros i Hi.
  pose proof (check_below 64 (fun i => negb (alphabet i =? pad))
    ltac:(vm_compute; reflexivity) i Hi) as H.
  now apply negb_true_iff in H.
Qed.

Lemma group_values : forall v0 v1 v2 v3,
  v0 < 64 -> v1 < 64 -> v2 < 64 -> v3 < 64 ->
  group v0 v1 v2 v3
  = [(v0 * 4 + v1 / 16) mod 256; ((v1 mod 16) * 16 + v2 / 4) mod 256;
     ((v2 mod 4) * 64 + v3) mod 256].
Proof.
  intros v0 v1 v2 v3 H0 H1 H2 H3. unfold group.
  now rewrite d0, d48, d15, d60, d3 by assumption.
Qed.

Definition bytes (s : list N) : Prop := Forall (fun b => b < 256) s.

Lemma group_bytes : forall v0 v1 v2 v3, bytes (group v0 v1 v2 v3).
Proof.
  intros. unfold group, bytes.
  repeat constructor; apply N.mod_lt; discriminate.
Qed.

Lemma decode_step : forall junk i c4 rest,
  i < 64 ->
  decode_loop junk c4 (alphabet i :: rest)
  = match c4 with
    | [v0; v1; v2] =>
      let '(out, n) := decode_loop junk [] rest in
      (group v0 v1 v2 i ++ out, S n)
    | _ =>
      let '(out, n) := decode_loop junk (c4 ++ [i]) rest in
      (out, S n)
    end.
Proof.
  intros junk i c4 rest Hi. cbn [decode_loop].
  now rewrite alphabet_not_pad, inverse_alphabet by exact Hi.
Qed.

Lemma decode_four : forall junk i0 i1 i2 i3 rest,
  i0 < 64 -> i1 < 64 -> i2 < 64 -> i3 < 64 ->
  decode_loop junk [] (alphabet i0 :: alphabet i1 :: alphabet i2 :: alphabet i3 :: rest)
  = (group i0 i1 i2 i3 ++ fst (decode_loop junk [] rest),
     S (S (S (S (snd (decode_loop junk [] rest)))))).
Proof.
  intros junk i0 i1 i2 i3 rest H0 H1 H2 H3.
  rewrite decode_step by exact H0. cbn [app].
  rewrite decode_step by exact H1. cbn [app].
  rewrite decode_step by exact H2. cbn [app].
  rewrite decode_step by exact H3.
  destruct (decode_loop junk [] rest) as [out n]. reflexivity.
Qed.

(** Number of characters of an encoding that carry data. *)
Definition payload (n : nat) : nat :=
  (4 * (n / 3) + match (n mod 3)%nat with 0%nat => 0 | 1%nat => 2 | _ => 3 end)%nat.

Lemma three_induction : forall (P : list N -> Prop),
  P [] -> (forall a, P [a]) -> (forall a b, P [a; b]) ->
  (forall a b c s, P s -> P (a :: b :: c :: s)) ->
  forall s, P s.
Proof.
  intros P H0 H1 H2 H3 s.
  assert (G : P s /\ (forall a, P (a :: s)) /\ (forall a b, P (a :: b :: s))).
  { induction s as [|x s (A & B & C)]; [auto|].
    split; [apply B|]. split; [intros a; apply C|].
    intros a b. now apply H3. }
  apply G.
Qed.

Lemma payload_three : forall n, payload (S (S (S n))) = (4 + payload n)%nat.
Proof.
  intros n. unfold payload.
  replace (S (S (S n))) with (n + 1 * 3)%nat by lia.
  rewrite Nat.div_add, Nat.mod_add by discriminate.
  destruct (n mod 3)%nat as [|[|k]]; lia.
Qed.

Lemma encoded_size_three : forall n, encoded_size (S (S (S n))) = (4 + encoded_size n)%nat.
Proof.
  intros n. unfold encoded_size.
  replace (S (S (S n)) + 2)%nat with (n + 2 + 1 * 3)%nat by lia.
  rewrite Nat.div_add by discriminate. lia.
Qed.

Lemma encode_length : forall s, length (encode s) = encoded_size (length s).
Proof.
  apply three_induction; try reflexivity.
  intros a b c s IH. cbn [encode length]. rewrite IH, encoded_size_three. reflexivity.
Qed.

Ltac each_char :=
  repeat (apply Forall_cons;
    [first [left; reflexivity | right; eexists; split; [|reflexivity]; lia]|]).

Lemma encode_alphabet : forall s, bytes s ->
  Forall (fun ch => ch = pad \/ exists i, i < 64 /\ ch = alphabet i) (encode s).
Proof.
  intros s. pattern s. apply three_induction.
  - constructor.
  - intros a H. inversion H; subst. cbn [encode].
    rewrite m252, m3 by assumption.
    each_char. constructor.
  - intros a b H. inversion H as [|? ? Ha H']; subst. inversion H' as [|? ? Hb ?]; subst.
    cbn [encode]. rewrite m252, m3, m240, m15 by assumption.
    each_char. constructor.
  - clear s. intros a b c s IH H. inversion H as [|? ? Ha H']; subst.
    inversion H' as [|? ? Hb H'']; subst. inversion H'' as [|? ? Hc Hs]; subst.
    cbn [encode]. rewrite m252, m3, m240, m192, m15, m63 by assumption.
    each_char.
    now apply IH.
Qed.

Lemma decode_encode : forall junk s, bytes s ->
  decode_raw junk (encode s) = (s, payload (length s)).
Proof.
  intros junk s. unfold decode_raw. pattern s. apply three_induction.
  - reflexivity.
  - intros a H. inversion H as [|? ? Ha _]; subst. cbn [encode].
    rewrite m252, m3 by assumption.
    rewrite decode_step by lia. cbn [app].
    rewrite decode_step by lia. cbn [app decode_loop].
    change (pad =? pad) with true. cbn iota.
    unfold flush. cbn [length nth Nat.sub firstn].
    unfold group. rewrite d0, d48 by lia. cbn [firstn].
    change (payload 1) with 2%nat. f_equal. f_equal. lia.
  - intros a b H. inversion H as [|? ? Ha H']; subst. inversion H' as [|? ? Hb ?]; subst.
    cbn [encode]. rewrite m252, m3, m240, m15 by assumption.
    rewrite decode_step by lia. cbn [app].
    rewrite decode_step by lia. cbn [app].
    rewrite decode_step by lia. cbn [app decode_loop].
    change (pad =? pad) with true. cbn iota.
    unfold flush. cbn [length nth Nat.sub firstn].
    unfold group. rewrite d0, d48, d15, d60 by lia. cbn [firstn].
    change (payload 2) with 3%nat. f_equal. f_equal; [|f_equal]; lia.
  - clear s. intros a b c s IH H. inversion H as [|? ? Ha H']; subst.
    inversion H' as [|? ? Hb H'']; subst. inversion H'' as [|? ? Hc Hs]; subst.
    cbn [encode]. rewrite m252, m3, m240, m192, m15, m63 by assumption.
    rewrite decode_four by lia. rewrite IH by exact Hs. cbn [fst snd].
    rewrite group_values by lia.
    cbn [length]. rewrite payload_three. cbn [app Nat.add].
    f_equal. f_equal; [|f_equal; [|f_equal]]; lia.
Qed.

(** ** What decoding any text does *)

Lemma flush_length : forall junk c4, (length c4 <= 3)%nat ->
  length (flush junk c4) = (length c4 - 1)%nat.
Proof.
  intros junk c4 H. unfold flush. destruct c4 as [|v c4]; [reflexivity|].
  rewrite firstn_length. unfold group. cbn [length] in *. lia.
Qed.

Lemma decode_loop_sizes : forall junk src c4 out n,
  (length c4 <= 3)%nat -> decode_loop junk c4 src = (out, n) ->
  (n <= length src)%nat /\
  length out = ((length c4 + n) / 4 * 3 + ((length c4 + n) mod 4 - 1))%nat.
Proof.
  intros junk. induction src as [|ch src IH]; intros c4 out n Hc H.
  - cbn [decode_loop] in H. injection H as <- <-. rewrite flush_length by exact Hc.
    rewrite Nat.add_0_r, Nat.div_small, Nat.mod_small by lia. cbn [length]. lia.
  - cbn [decode_loop] in H.
    assert (Stop : (flush junk c4, 0%nat) = (out, n) ->
      (n <= length (ch :: src))%nat /\
      length out = ((length c4 + n) / 4 * 3 + ((length c4 + n) mod 4 - 1))%nat).
    { intros E. injection E as <- <-. rewrite flush_length by exact Hc.
      rewrite Nat.add_0_r, Nat.div_small, Nat.mod_small by lia. lia. }
    destruct (ch =? pad); [now apply Stop|].
    destruct (inverse ch) as [v|]; [|now apply Stop]. clear Stop.
    assert (Go : forall (L : (length c4 < 3)%nat),
      (let '(out, n) := decode_loop junk (c4 ++ [v]) src in (out, S n)) = (out, n) ->
      (n <= length (ch :: src))%nat /\
      length out = ((length c4 + n) / 4 * 3 + ((length c4 + n) mod 4 - 1))%nat).
    { intros L E. destruct (decode_loop junk (c4 ++ [v]) src) as [o m] eqn:D.
      injection E as <- <-. apply IH in D; [|rewrite app_length; cbn; lia].
      rewrite app_length in D. cbn [length] in *.
      replace (length c4 + S m)%nat with (length c4 + 1 + m)%nat by lia. lia. }
    destruct c4 as [|v0 [|v1 [|v2 [|v3 c4] ] ] ];
      try (apply Go; [cbn; lia|exact H]); [|cbn in Hc; lia].
    clear Go. destruct (decode_loop junk [] src) as [o m] eqn:D.
    injection H as <- <-. apply IH in D; [|cbn; lia].
    cbn [length group app] in *.
    replace (3 + S m)%nat with (0 + m + 1 * 4)%nat by lia.
    rewrite Nat.div_add, Nat.mod_add by discriminate. lia.
Qed.

Lemma flush_bytes : forall junk c4, bytes (flush junk c4).
Proof.
  intros junk c4. unfold flush. destruct c4; [constructor|].
  unfold bytes. apply Forall_forall. intros x Hx.
  pose proof (group_bytes (nth 0 (n :: c4) junk) (nth 1 (n :: c4) junk)
    (nth 2 (n :: c4) junk) (nth 3 (n :: c4) junk)) as G.
  unfold bytes in G. rewrite Forall_forall in G. apply G.
  rewrite <- (firstn_skipn (length (n :: c4) - 1)). apply in_or_app. now left.
Qed.

Lemma decode_loop_bytes : forall junk src c4, bytes (fst (decode_loop junk c4 src)).
Proof.
  intros junk. induction src as [|ch src IH]; intros c4; cbn [decode_loop].
  - apply flush_bytes.
  - destruct (ch =? pad); [apply flush_bytes|].
    destruct (inverse ch) as [v|]; [|apply flush_bytes].
    assert (Go : bytes (fst (let '(out, n) := decode_loop junk (c4 ++ [v]) src in (out, S n)))).
    { specialize (IH (c4 ++ [v])). now destruct (decode_loop junk (c4 ++ [v]) src). }
    destruct c4 as [|v0 [|v1 [|v2 [|v3 c4] ] ] ]; try exact Go.
    specialize (IH []). destruct (decode_loop junk [] src). cbn [fst] in *.
    unfold bytes. apply Forall_app. split; [apply group_bytes|exact IH].
Qed.

Lemma inverse_below : forall c v, inverse c = Some v -> v < 64.
Proof.
  intros c v H. destruct (N.lt_ge_cases c 256) as [L|G].
  - pose proof (check_below 256
      (fun c => match inverse c with Some j => j <? 64 | None => true end)
      ltac:(vm_compute; reflexivity) c L) as K.
    cbv beta in K. rewrite H in K. now apply N.ltb_lt.
  - unfold inverse in H. rewrite nth_overflow in H; [discriminate|].
    change (length inverse_table) with 256%nat. lia.
Qed.

(** The leftovers in the working array do not reach the output. *)
Lemma flush_junk : forall j1 j2 c4, (length c4 <= 3)%nat -> flush j1 c4 = flush j2 c4.
Proof.
  intros j1 j2 c4 H. destruct c4 as [|v0 [|v1 [|v2 [|v3 c4] ] ] ];
    reflexivity.
Qed.

Lemma decode_loop_junk : forall j1 j2 src c4, (length c4 <= 3)%nat ->
  decode_loop j1 c4 src = decode_loop j2 c4 src.
Proof.
  intros j1 j2. induction src as [|ch src IH]; intros c4 H; cbn [decode_loop].
  - now rewrite (flush_junk j1 j2).
  - rewrite (flush_junk j1 j2) by exact H.
    destruct (ch =? pad); [reflexivity|]. destruct (inverse ch) as [v|]; [|reflexivity].
    destruct c4 as [|v0 [|v1 [|v2 [|v3 c4] ] ] ]; try (rewrite IH by (cbn; lia); reflexivity).
    cbn in H. lia.
Qed.
