(** Lemmas about reading and saving files. *)
From Coq Require Import List NArith Bool Arith Lia.
From Verif Require Import AddressModel TypeProofs TaxonomyProofs FileModel.
Import ListNotations.
Open Scope nat_scope.
Local Notation length := List.length.

Lemma set_same : forall p v d, set p v d p = v.
Proof. intros. unfold set. rewrite bytes_eqb_refl'. reflexivity. Qed.
Lemma set_other : forall p q v d, p <> q -> set p v d q = d q.
Proof. intros p q v d H. unfold set. destruct (bytes_eqb p q) eqn:E; [|reflexivity]. apply bytes_eqb_iff in E. contradiction. Qed.
Lemma tmp_other : forall p, tmp p <> p.
Proof. intros p H. unfold tmp in H. assert (length (p ++ [46; 116; 109; 112]%N) = length p) as L by (rewrite H; reflexivity). rewrite app_length in L. cbn in L. lia. Qed.

(** What a file holds after [done] was written over [old]. *)
Definition over (x old : list N) : list N := x ++ skipn (length x) old.
Lemma write_over : forall done x old, write_at (length done) x (over done old) = over (done ++ x) old.
Proof.
  intros done x old. unfold write_at, over. rewrite firstn_app, firstn_all, Nat.sub_diag. cbn [firstn]. rewrite app_nil_r.
  rewrite skipn_app. rewrite skipn_all2 by lia. cbn [app]. replace (length done + length x - length done) with (length x) by lia.
  rewrite <- app_assoc. do 2 f_equal. rewrite app_length. clear. revert old. induction done as [|c done IH]; intros old; [reflexivity|].
  destruct old as [|o old]; [cbn [length skipn]; rewrite !skipn_nil; reflexivity|]. cbn [length skipn Nat.add]. apply IH.
Qed.
Lemma write_loop_spec : forall cap p os rest done old d e os' d', d p = Some (over done old) ->
  write_loop cap p (length done) rest os d = (e, os', d') ->
  (exists k, d' p = Some (over (done ++ firstn k rest) old) /\ (e = Done -> firstn k rest = rest)) /\ (forall q, q <> p -> d' q = d q).
Proof.
  intros cap p. induction os as [|o os IH]; intros rest done old d e os' d' D H.
  - destruct rest as [|c rest]; cbn [write_loop] in H; inversion H; subst; (split; [|reflexivity]); exists 0; (split; [cbn [firstn]; rewrite app_nil_r; assumption|]);
      [reflexivity|discriminate].
  - destruct rest as [|c rest]; [cbn [write_loop] in H; inversion H; subst; split; [|reflexivity]; exists 0; split; [cbn [firstn]; rewrite app_nil_r; assumption|reflexivity]|].
    destruct o as [| |n]; cbn [write_loop] in H.
    + apply (IH (c :: rest) done old d e os' d'); assumption.
    + inversion H; subst. split; [|reflexivity]. exists 0. split; [cbn [firstn]; rewrite app_nil_r; assumption|discriminate].
    + set (k := Nat.min n (Nat.min cap (length (c :: rest)))) in *. destruct (k =? 0) eqn:K.
      * inversion H; subst. split; [|reflexivity]. exists 0. split; [cbn [firstn]; rewrite app_nil_r; assumption|discriminate].
      * apply Nat.eqb_neq in K. assert (k <= length (c :: rest)) as KL by lia.
        assert (length (firstn k (c :: rest)) = k) as FL by (apply firstn_length_le; assumption).
        assert (length done + k = length (done ++ firstn k (c :: rest))) as TL by (rewrite app_length, FL; reflexivity). rewrite TL in H.
        assert (content p d = over done old) as C by (unfold content; rewrite D; reflexivity). rewrite C, write_over in H.
        apply (IH (skipn k (c :: rest)) (done ++ firstn k (c :: rest)) old) in H; [|apply set_same]. destruct H as [(j & H1 & H2) H3]. split.
        -- exists (k + j). assert (firstn (k + j) (c :: rest) = firstn k (c :: rest) ++ firstn j (skipn k (c :: rest))) as ->.
           { clear - KL. revert KL. generalize (c :: rest) as l. induction k as [|k IHk]; intros l L; [reflexivity|]. destruct l as [|x l]; [cbn in L; lia|].
             cbn [Nat.add firstn skipn app]. f_equal. apply IHk. cbn in L. lia. }
           split; [rewrite <- app_assoc in H1; assumption|]. intros E. rewrite (H2 E). apply firstn_skipn.
        -- intros q Hq. rewrite (H3 q Hq). apply set_other. congruence.
Qed.
Lemma write_spec : forall cap p x os d e os' d', write cap p x os d = (e, os', d') ->
  (d' p = d p \/ exists k, d' p = Some (over (firstn k x) (content p d))) /\ (e = Done -> d' p = Some (over x (content p d))) /\ (forall q, q <> p -> d' q = d q).
Proof.
  intros cap p x os d e os' d' H. unfold write in H. destruct os as [|o os]; [inversion H; subst; split; [auto|split; [discriminate|reflexivity] ]|].
  assert (o = Fail \/ write_loop cap p 0 x os (open_write p d) = (e, os', d')) as [->|H'] by (destruct o; auto);
    [inversion H; subst; split; [auto|split; [discriminate|reflexivity] ]|]. clear H. rename H' into H.
  assert (open_write p d p = Some (over [] (content p d))) as O.
  { unfold open_write, content, over. cbn [app length skipn]. destruct (d p) eqn:E; [rewrite E; reflexivity|apply set_same]. }
  assert (forall q, q <> p -> open_write p d q = d q) as Q by (intros q Hq; unfold open_write; destruct (d p); [reflexivity|apply set_other; congruence]).
  apply (write_loop_spec cap p os x [] (content p d)) in H; [|exact O]. destruct H as [(k & H1 & H2) H3]. cbn [app] in *. split; [right; eauto|]. split.
  - intros E. rewrite (H2 E) in H1. assumption.
  - intros q Hq. rewrite (H3 q Hq). apply Q. assumption.
Qed.
Lemma over_length : forall x old, length (over x old) = max (length x) (length old).
Proof. intros. unfold over. rewrite app_length, skipn_length. lia. Qed.
(** What [save] does, exactly. *)
Lemma save_spec : forall cap p x os d e d', save cap p x os d = (e, d') ->
  (e = Done -> d' p = Some (over x (content (tmp p) d)) /\ d' (tmp p) = None) /\
  (e <> Done -> d' p = d p /\ length (content (tmp p) d') <= max (length x) (length (content (tmp p) d))) /\
  (forall q, q <> p -> q <> tmp p -> d' q = d q).
Proof.
  intros cap p x os d e d' H. unfold save in H. destruct (write cap (tmp p) x os d) as [ [e1 os1] d1] eqn:W.
  apply write_spec in W as (W1 & W2 & W3). pose proof (tmp_other p) as T.
  assert (length (content (tmp p) d1) <= max (length x) (length (content (tmp p) d))) as L.
  { destruct W1 as [E|(k & E)]; unfold content at 1; rewrite E; [fold (content (tmp p) d); lia|]. rewrite over_length, firstn_length. lia. }
  assert (d1 p = d p) as P by (apply W3; congruence).
  assert (forall os2 e2 o2 d2, remove (tmp p) os2 d1 = (e2, o2, d2) -> d2 p = d p /\ length (content (tmp p) d2) <= max (length x) (length (content (tmp p) d)) /\
    (forall q, q <> p -> q <> tmp p -> d2 q = d q)) as R.
  { intros os2 e2 o2 d2 R. unfold remove in R. destruct os2 as [|[| |n] os2]; inversion R; subst; (split; [|split]); try assumption;
      try (intros q H1 H2; apply W3; assumption); try (rewrite set_other by assumption; assumption);
      try (unfold content at 1; rewrite set_same; cbn; lia); intros q H1 H2; rewrite set_other by congruence; apply W3; assumption. }
  destruct e1.
  - destruct os1 as [|[| |n] os1].
    + inversion H; subst. split; [discriminate|]. split; [auto|]. intros q H1 H2. apply W3. assumption.
    + inversion H; subst. split; [|split; [congruence|] ].
      * intros _. rewrite set_other by assumption. rewrite set_same. split; [apply W2; reflexivity|apply set_same].
      * intros q H1 H2. rewrite !set_other by congruence. apply W3. assumption.
    + destruct (remove (tmp p) os1 d1) as [ [e2 o2] d2] eqn:E. destruct (R _ _ _ _ E) as (R1 & R2 & R3).
      destruct e2; inversion H; subst; (split; [discriminate|]); auto.
    + inversion H; subst. split; [|split; [congruence|] ].
      * intros _. rewrite set_other by assumption. rewrite set_same. split; [apply W2; reflexivity|apply set_same].
      * intros q H1 H2. rewrite !set_other by congruence. apply W3. assumption.
  - destruct (remove (tmp p) os1 d1) as [ [e2 o2] d2] eqn:E. destruct (R _ _ _ _ E) as (R1 & R2 & R3).
    destruct e2; inversion H; subst; (split; [discriminate|]); auto.
  - inversion H; subst. split; [discriminate|]. split; [auto|]. intros q H1 H2. apply W3. assumption.
Qed.

Lemma read_loop_spec : forall cap os file want acc y, read_loop cap file want acc os = (Done, y) -> exists k, y = acc ++ firstn k file /\ k <= want.
Proof.
  intros cap. induction os as [|o os IH]; intros file want acc y H.
  - destruct want; cbn in H; inversion H; subst. exists 0. cbn [firstn]. rewrite app_nil_r. auto.
  - destruct want as [|w]; [cbn in H; inversion H; subst; exists 0; cbn [firstn]; rewrite app_nil_r; auto|]. cbn [read_loop] in H. destruct o as [| |n].
    + apply IH in H. assumption.
    + discriminate.
    + set (k := Nat.min n (Nat.min cap (Nat.min (S w) (length file)))) in *. destruct (k =? 0) eqn:K.
      * inversion H; subst. exists 0. cbn [firstn]. rewrite app_nil_r. split; [reflexivity|lia].
      * apply IH in H as (j & -> & J). exists (k + j). split; [|lia]. rewrite <- app_assoc. f_equal. clearbody k. clear. revert file. induction k as [|k IHk]; intros file; [reflexivity|].
        destruct file as [|c file]; [cbn; apply firstn_nil|]. cbn [Nat.add firstn skipn app]. f_equal. apply IHk.
Qed.
(** Calls that do not fail. *)
Definition good (o : outcome) : bool := match o with Fail => false | Part 0 => false | _ => true end.
Definition moving (o : outcome) : bool := match o with Part _ => true | _ => false end.
Definition moves (os : list outcome) : nat := length (filter moving os).
Lemma read_loop_good : forall cap os file want acc, 0 < cap -> forallb good os = true -> want = length file -> want <= moves os ->
  read_loop cap file want acc os = (Done, acc ++ file).
Proof.
  intros cap os. induction os as [|o os IH]; intros file want acc C G W L.
  - destruct file; cbn in *; subst; [cbn; rewrite app_nil_r; reflexivity|lia].
  - destruct file as [|c file]; [cbn in *; subst; cbn; rewrite app_nil_r; reflexivity|]. cbn [forallb] in G. apply andb_prop in G as [G1 G2].
    destruct want as [|w]; [discriminate|]. destruct o as [| |n]; cbn [read_loop]; [apply IH; assumption|discriminate|].
    set (k := Nat.min n (Nat.min cap (Nat.min (S w) (length (c :: file))))). assert (0 < k) as K by (unfold k; destruct n; [discriminate|cbn [length]; lia]).
    assert (k =? 0 = false) as -> by (apply Nat.eqb_neq; lia). assert (k <= length (c :: file)) as KL by lia. rewrite IH; try assumption.
    + rewrite <- app_assoc, firstn_skipn. reflexivity.
    + rewrite skipn_length. lia.
    + unfold moves in *. cbn [filter moving length] in L. lia.
Qed.
Lemma write_loop_good : forall cap p os rest total d, 0 < cap -> forallb good os = true -> length rest < moves os ->
  exists os' d', write_loop cap p total rest os d = (Done, os', d') /\ forallb good os' = true /\ 0 < moves os'.
Proof.
  intros cap p. induction os as [|o os IH]; intros rest total d C G L; [cbn in L; lia|].
  destruct rest as [|c rest]; [cbn [write_loop]; exists (o :: os), d; split; [reflexivity|]; split; [assumption|exact L]|].
  cbn [forallb] in G. apply andb_prop in G as [G1 G2]. destruct o as [| |n]; cbn [write_loop]; [apply IH; assumption|discriminate|].
  set (k := Nat.min n (Nat.min cap (length (c :: rest)))). assert (0 < k) as K by (unfold k; destruct n; [discriminate|cbn [length]; lia]).
  assert (k =? 0 = false) as -> by (apply Nat.eqb_neq; lia). apply IH; try assumption. rewrite skipn_length. unfold moves in *. cbn [filter moving length] in *. lia.
Qed.
