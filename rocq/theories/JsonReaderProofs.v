(** Lemmas on the import of JSON lines, for C73. *)
From Coq Require Import List ZArith NArith Bool Arith Lia String Ascii Permutation ZifyBool ZifyNat ZifyN.
From Coq Require Import Init.Datatypes.
From Verif Require Import AddressModel AddressProofs DataModel EscapeModel LiteralModel CsvModel JsonModel JsonProofs JsonReaderModel.
Import ListNotations.
Open Scope nat_scope.
Local Notation length := List.length.
Local Notation concat := List.concat.

Section Loop.
  Variable key : Type.
  Variable eqb : key -> key -> bool.
  Hypothesis eqb_eq : forall a b, eqb a b = true <-> a = b.
  Variable columns_of : key -> list (text * column).
  Variable choose : list (text * json) -> option key.
  Variable row_of : list (text * column) -> list (text * json) -> list data * bool.
  Variable order : list (key * rows) -> list (key * rows).
  Hypothesis order_all : forall l, Permutation (order l) l.
  Notation line := (line key eqb columns_of choose row_of).
  Notation finish := (finish key eqb order).
  Notation finish_one := (finish_one key eqb).
  Notation rows_of := (rows_of key eqb).
  Notation loop := (loop key eqb columns_of choose row_of order).
  Notation read := (read key eqb columns_of choose row_of order).
  Notation run := (run key eqb columns_of choose row_of order).
  Notation reader := (reader key).

  (** What a line says: perhaps an event, and whether it counts as invalid or as unknown. *)
  Inductive says : text -> option (key * list data) -> nat -> nat -> Prop :=
  | says_invalid : forall l, (forall o, document l <> Some (JObj o)) -> says l None 1 0
  | says_unknown : forall l o, document l = Some (JObj o) -> choose o = None -> says l None 0 1
  | says_event : forall l o k row (err : bool), document l = Some (JObj o) -> choose o = Some k -> row_of (columns_of k) o = (row, err) ->
      says l (Some (k, row)) (if err then 1 else 0) 0.
  Definition opt_list {B} (o : option B) : list B := match o with Some x => [x] | None => [] end.
  (** What lines say. *)
  Inductive told : list text -> list (key * list data) -> nat -> nat -> Prop :=
  | told_nil : told [] [] 0 0
  | told_cons : forall l ls ev evs i is u us, says l ev i u -> told ls evs is us -> told (l :: ls) (opt_list ev ++ evs) (i + is) (u + us).
  (** The rows of a layout among events, and among slices. *)
  Definition rows_in (k : key) (evs : list (key * list data)) : rows := map snd (filter (fun e => eqb k (fst e)) evs).
  Definition got (k : key) (ss : list (key * rows)) : rows := concat (map snd (filter (fun s => eqb k (fst s)) ss)).

  Lemma told_app : forall a b ea eb ia ib ua ub, told a ea ia ua -> told b eb ib ub -> told (a ++ b) (ea ++ eb) (ia + ib) (ua + ub).
  Proof.
    intros a b ea eb ia ib ua ub H K. induction H; [exact K|]. cbn [app]. rewrite <- app_assoc, <- !Nat.add_assoc. now constructor.
  Qed.
  Lemma told_fun : forall a e i u, told a e i u -> forall e' i' u', told a e' i' u' -> e = e' /\ i = i' /\ u = u'.
  Proof.
    intros a e i u H. induction H as [|l ls ev evs i is u us S T IH]; intros e' i' u' K; inversion K as [|l0 ls0 ev' evs' i0 is0 u0 us0 S' T' E1 E2 E3 E4]; subst; [auto|].
    destruct (IH _ _ _ T') as (-> & -> & ->). assert (X : ev = ev' /\ i = i0 /\ u = u0); [|destruct X as (-> & -> & ->); auto].
    inversion S as [l0 D|l0 o D C|l0 o k row err D C R]; inversion S' as [l1 D'|l1 o' D' C'|l1 o' k' row' err' D' C' R']; subst; auto; try (exfalso; now apply (D o')); try (exfalso; now apply (D' o)); try congruence.
    rewrite D in D'. injection D' as ->. rewrite C in C'. injection C' as ->. rewrite R in R'. injection R' as -> ->. auto.
  Qed.
  Lemma told_total : forall ls, exists evs i u, told ls evs i u.
  Proof.
    induction ls as [|l ls (evs & i & u & IH)]; [exists [], 0, 0; constructor|].
    assert (S : exists ev i u, says l ev i u).
    { destruct (document l) as [j|] eqn:D; [|exists None, 1, 0; apply says_invalid; intros o; congruence].
      destruct j; try (exists None, 1, 0; apply says_invalid; intros o0; congruence).
      match type of D with document l = Some (JObj ?o) => destruct (choose o) as [k|] eqn:C; [|exists None, 0, 1; now apply (says_unknown l o)]; destruct (row_of (columns_of k) o) as [row err] eqn:R;
        exists (Some (k, row)), (if err then 1 else 0), 0; now apply (says_event l o k row err) end. }
    destruct S as (ev & i' & u' & S). exists (opt_list ev ++ evs), (i' + i), (u' + u). now constructor.
  Qed.

  (** ** Builders *)

  Lemma eqb_refl : forall k, eqb k k = true. Proof. intros k. now apply eqb_eq. Qed.
  Lemma eqb_neq : forall a b, a <> b -> eqb a b = false.
  Proof. intros a b N. destruct (eqb a b) eqn:E; [|reflexivity]. apply eqb_eq in E. contradiction. Qed.
  Lemma rows_put : forall k row bs k', rows_of k' (put key eqb k row bs) = rows_of k' bs ++ (if eqb k' k then [row] else []).
  Proof.
    intros k row bs k'. induction bs as [|[b rs] bs IH]; cbn [put JsonReaderModel.rows_of].
    - destruct (eqb k' k); reflexivity.
    - destruct (eqb k b) eqn:E; cbn [JsonReaderModel.rows_of].
      + apply eqb_eq in E. subst b. destruct (eqb k' k); [reflexivity|now rewrite app_nil_r].
      + destruct (eqb k' b) eqn:F; [|exact IH]. apply eqb_eq in F. subst b. rewrite eqb_neq by (intros ->; rewrite eqb_refl in E; discriminate). now rewrite app_nil_r.
  Qed.
  Lemma rows_clear : forall k bs k', rows_of k' (clear key eqb k bs) = if eqb k' k then [] else rows_of k' bs.
  Proof.
    intros k bs k'. induction bs as [|[b rs] bs IH]; cbn [clear JsonReaderModel.rows_of]; [now destruct (eqb k' k)|].
    destruct (eqb k b) eqn:E; cbn [JsonReaderModel.rows_of].
    - apply eqb_eq in E. subst b. destruct (eqb k' k); reflexivity.
    - destruct (eqb k' b) eqn:F; [|exact IH]. apply eqb_eq in F. subst b. rewrite eqb_neq by (intros ->; rewrite eqb_refl in E; discriminate). reflexivity.
  Qed.
  Lemma rows_absent : forall k bs, ~ In k (map fst bs) -> rows_of k bs = [].
  Proof. intros k bs. induction bs as [|[b rs] bs IH]; intros H; [reflexivity|]. cbn in H |- *. rewrite eqb_neq by (intros ->; apply H; now left). apply IH. intros I. apply H. now right. Qed.
  Lemma got_app : forall k a b, got k (a ++ b) = got k a ++ got k b.
  Proof. intros k a b. unfold got. now rewrite filter_app, map_app, concat_app. Qed.
  Lemma rows_in_app : forall k a b, rows_in k (a ++ b) = rows_in k a ++ rows_in k b.
  Proof. intros k a b. unfold rows_in. now rewrite filter_app, map_app. Qed.

  (** What holds between lines. *)
  Definition fits (size : nat) (r : reader) : Prop := Forall (fun s => 1 <= length (snd s) <= size) (j_slices key r) /\ forall k, length (rows_of k (j_builders key r)) < size.
  Definition full (k : key) (r : reader) : rows := got k (j_slices key r) ++ rows_of k (j_builders key r).
  Definition same_count (r r' : reader) : Prop := j_invalid key r' = j_invalid key r /\ j_unknown key r' = j_unknown key r /\ j_lines key r' = j_lines key r.

  Lemma finish_one_ok : forall k r, (forall k', full k' (finish_one k r) = full k' r) /\ same_count r (finish_one k r) /\
    (forall k', rows_of k' (j_builders key (finish_one k r)) = if eqb k' k then [] else rows_of k' (j_builders key r)).
  Proof.
    intros k r. unfold finish_one, same_count. destruct (rows_of k (j_builders key r)) as [|x rs] eqn:E.
    - repeat split. intros k'. destruct (eqb k' k) eqn:F; [|reflexivity]. apply eqb_eq in F. now subst k'.
    - cbn [j_slices j_builders j_invalid j_unknown j_lines]. repeat split.
      + intros k'. unfold full. cbn [j_slices j_builders]. rewrite got_app, rows_clear, <- app_assoc. f_equal. unfold got. cbn [filter fst]. destruct (eqb k' k) eqn:F; cbn [map concat snd app].
        * apply eqb_eq in F. subst k'. rewrite E. now rewrite !app_nil_r.
        * reflexivity.
      + intros k'. now rewrite rows_clear.
  Qed.
  Lemma finish_one_sizes : forall size k r, Forall (fun s => 1 <= length (snd s) <= size) (j_slices key r) -> length (rows_of k (j_builders key r)) <= size ->
    Forall (fun s => 1 <= length (snd s) <= size) (j_slices key (finish_one k r)).
  Proof.
    intros size k r F L. unfold finish_one. destruct (rows_of k (j_builders key r)) as [|x rs] eqn:E; [exact F|]. cbn [j_slices]. apply Forall_app. split; [exact F|]. constructor; [|constructor]. cbn in L |- *. lia.
  Qed.
  Lemma finish_ok : forall size r, fits size r -> 0 < size -> (forall k, full k (finish r) = full k r) /\ same_count r (finish r) /\ fits size (finish r) /\ (forall k, rows_of k (j_builders key (finish r)) = []).
  Proof.
    intros size r (F & L) P. unfold finish.
    assert (G : forall (bs : list (key * rows)) q, Forall (fun s => 1 <= length (snd s) <= size) (j_slices key q) -> (forall k, length (rows_of k (j_builders key q)) < size) ->
      let q' := fold_left (fun r b => finish_one (fst b) r) bs q in
      (forall k, full k q' = full k q) /\ same_count q q' /\ Forall (fun s => 1 <= length (snd s) <= size) (j_slices key q') /\
      (forall k, rows_of k (j_builders key q') = if existsb (fun b => eqb k (fst b)) bs then [] else rows_of k (j_builders key q))).
    { induction bs as [|b bs IH]; intros q Fq Lq; cbn [fold_left].
      - split; [reflexivity|]. split; [repeat split|]. split; [exact Fq|reflexivity].
      - destruct (finish_one_ok (fst b) q) as (A1 & A2 & A3). destruct (IH (finish_one (fst b) q)) as (B1 & B2 & B3 & B4).
        + apply finish_one_sizes; [exact Fq|]. specialize (Lq (fst b)). lia.
        + intros k. rewrite A3. destruct (eqb k (fst b)); [cbn; lia|apply Lq].
        + cbv zeta in B1, B2, B3, B4 |- *. split; [intros k; now rewrite B1, A1|]. split; [unfold same_count in *; intuition congruence|]. split; [exact B3|].
          intros k. rewrite B4, A3. cbn [existsb]. destruct (eqb k (fst b)), (existsb _ bs); reflexivity. }
    destruct (G (order (j_builders key r)) r F L) as (G1 & G2 & G3 & G4). cbv zeta in G1, G2, G3, G4.
    assert (Z : forall k, rows_of k (j_builders key (fold_left (fun r b => finish_one (fst b) r) (order (j_builders key r)) r)) = []).
    { intros k. rewrite G4. destruct (existsb _ _) eqn:E; [reflexivity|]. apply rows_absent. intros I. apply in_map_iff in I. destruct I as (b & <- & I).
      apply (Permutation_in b (Permutation_sym (order_all _))) in I. assert (X : existsb (fun b0 => eqb (fst b) (fst b0)) (order (j_builders key r)) = true); [|congruence].
      apply existsb_exists. exists b. split; [exact I|apply eqb_refl]. }
    split; [exact G1|]. split; [exact G2|]. split; [split; [exact G3|]; intros k; rewrite Z; cbn; lia|exact Z].
  Qed.
  Lemma line_ok : forall size l r, fits size r -> 0 < size -> forall ev i u, says l ev i u -> let '(r', produced) := line size l r in
    (forall k, full k r' = full k r ++ rows_in k (opt_list ev)) /\ j_invalid key r' = i + j_invalid key r /\ j_unknown key r' = u + j_unknown key r /\ fits size r' /\
    produced = (match ev with Some _ => true | None => false end).
  Proof.
    intros size l r (F & L) P ev i u S. unfold line. destruct S as [l D|l o D C|l o k row err D C R].
    - assert (X : forall B (a b : B), match document l with Some (JObj o) => a | _ => b end = b).
      { intros B a b. destruct (document l) as [j|]; [|reflexivity]. destruct j; try reflexivity. exfalso. eapply D. reflexivity. }
      destruct (document l) as [j|]; [destruct j|]; try (exfalso; eapply D; reflexivity); (split; [intros k; unfold full; cbn [count_invalid j_slices j_builders opt_list rows_in filter map]; now rewrite app_nil_r|]; repeat split; assumption).
    - rewrite D, C. split; [intros k; unfold full; cbn [count_unknown j_slices j_builders opt_list rows_in filter map]; now rewrite app_nil_r|]. repeat split; assumption.
    - rewrite D, C, R. set (r0 := if err then count_invalid key r else r). set (r1 := add_event key eqb k row r0).
      assert (Q : j_slices key r1 = j_slices key r /\ j_builders key r1 = put key eqb k row (j_builders key r) /\ j_invalid key r1 = (if err then 1 else 0) + j_invalid key r /\ j_unknown key r1 = j_unknown key r)
        by (unfold r1, r0, add_event; destruct err; repeat split).
      destruct Q as (Q1 & Q2 & Q3 & Q4).
      assert (FF : forall k', full k' r1 = full k' r ++ rows_in k' [(k, row)]).
      { intros k'. unfold full. rewrite Q1, Q2, rows_put, app_assoc. f_equal. unfold rows_in. cbn [filter fst]. destruct (eqb k' k); reflexivity. }
      assert (LK : forall k', length (rows_of k' (j_builders key r1)) = length (rows_of k' (j_builders key r)) + (if eqb k' k then 1 else 0)).
      { intros k'. rewrite Q2, rows_put, app_length. destruct (eqb k' k); reflexivity. }
      destruct (finish_one_ok k r1) as (A1 & (A2 & A2' & _) & A3). destruct (Nat.eqb_spec (length (rows_of k (j_builders key r1))) size) as [E|E].
      + split; [intros k'; rewrite A1; apply FF|]. split; [congruence|]. split; [cbn; congruence|]. split; [|reflexivity]. split.
        * apply finish_one_sizes; [now rewrite Q1|lia].
        * intros k'. rewrite A3. destruct (eqb k' k) eqn:K; [cbn; lia|]. rewrite LK, K. specialize (L k'). lia.
      + split; [exact FF|]. split; [exact Q3|]. split; [exact Q4|]. split; [|reflexivity]. split; [now rewrite Q1|]. intros k'. rewrite LK. specialize (L k'). destruct (eqb k' k) eqn:K; [|lia].
        apply eqb_eq in K. subst k'. rewrite LK, eqb_refl in E. lia.
  Qed.
  Lemma loop_ok : forall size, 0 < size -> forall ls events waits r, fits size r -> exists n evs i u, told (firstn n ls) evs i u /\ n <= length ls /\
    let '(e, r') := loop ls size events waits r in
    (forall k, full k r' = full k r ++ rows_in k evs) /\ j_invalid key r' = i + j_invalid key r /\ j_unknown key r' = u + j_unknown key r /\ fits size r' /\
    j_lines key r' = skipn n ls /\ (e <> Stall -> forall k, rows_of k (j_builders key r') = []) /\ (e = End -> n = length ls).
  Proof.
    intros size P ls. induction ls as [|l ls IH]; intros events waits r F.
    - exists 0, [], 0, 0. split; [constructor|]. split; [lia|].
      assert (G : fits size (next key [] r) /\ forall k, full k (next key [] r) = full k r) by (split; [exact F|reflexivity]). destruct G as (G1 & G2).
      destruct (finish_ok size (next key [] r) G1 P) as (A1 & (A2 & A3 & A4) & A5 & A6).
      cbn [JsonReaderModel.loop]. destruct events as [|events]; [|destruct (hd Now waits); destruct (j_batch key r)]; cbn [skipn];
        (split; [intros k; unfold rows_in; cbn [filter map]; rewrite app_nil_r; try rewrite A1; apply G2|]); (split; [exact A2 || reflexivity|]); (split; [exact A3 || reflexivity|]); (split; [exact A5 || exact G1|]);
        (split; [exact A4 || reflexivity|]); (split; [intros Ne; exact A6 || (now contradiction Ne)|reflexivity || discriminate]).
    - assert (Z : exists n evs i u, told (firstn n (l :: ls)) evs i u /\ n <= length (l :: ls) /\ forall e, e <> End -> e <> Stall -> let r' := finish (next key (l :: ls) r) in
        (forall k, full k r' = full k r ++ rows_in k evs) /\ j_invalid key r' = i + j_invalid key r /\ j_unknown key r' = u + j_unknown key r /\ fits size r' /\
        j_lines key r' = skipn n (l :: ls) /\ (e <> Stall -> forall k, rows_of k (j_builders key r') = []) /\ (e = End -> n = length (l :: ls))).
      { exists 0, [], 0, 0. split; [constructor|]. split; [lia|]. intros e N1 N2. destruct (finish_ok size (next key (l :: ls) r) F P) as (A1 & (A2 & A3 & A4) & A5 & A6).
        cbv zeta. split; [intros k; rewrite A1; unfold rows_in; cbn [filter map]; now rewrite app_nil_r|]. repeat split; try assumption. all: try apply A5. all: try (intros _; assumption). all: try contradiction. }
      assert (Y : forall ev' , exists n evs i u, told (firstn n (l :: ls)) evs i u /\ n <= length (l :: ls) /\ let '(e, r') := (let '(r', produced) := line size l r in loop ls size (if produced then ev' else S ev') (tl waits) r') in
        (forall k, full k r' = full k r ++ rows_in k evs) /\ j_invalid key r' = i + j_invalid key r /\ j_unknown key r' = u + j_unknown key r /\ fits size r' /\
        j_lines key r' = skipn n (l :: ls) /\ (e <> Stall -> forall k, rows_of k (j_builders key r') = []) /\ (e = End -> n = length (l :: ls))).
      { intros ev'. destruct (told_total [l]) as (ev0 & i0 & u0 & T). inversion T as [|x y ev evs i is u us S T2]; subst. inversion T2; subst.
        pose proof (line_ok size l r F P ev i u S) as K. destruct (line size l r) as [r1 produced]. destruct K as (K1 & K2 & K3 & K4 & K5).
        destruct (IH (if produced then ev' else Datatypes.S ev') (tl waits) r1 K4) as (n & evs & i' & u' & H1 & H2 & H3).
        exists (Datatypes.S n), (opt_list ev ++ evs), (i + i'), (u + u'). split; [cbn [firstn]; now constructor|]. split; [cbn [List.length]; lia|].
        destruct (loop ls size (if produced then ev' else Datatypes.S ev') (tl waits) r1) as [e r']. destruct H3 as (H3 & H4 & H5 & H6 & H7 & H8 & H9).
        split; [intros k; rewrite H3, K1, rows_in_app; now rewrite app_assoc|]. split; [lia|]. split; [lia|]. split; [exact H6|]. split; [exact H7|]. split; [exact H8|]. intros E. rewrite (H9 E). reflexivity. }
      cbn [JsonReaderModel.loop]. destruct events as [|events].
      + destruct Z as (n & evs & i & u & T & N & Z). exists n, evs, i, u. split; [exact T|]. split; [exact N|]. apply Z; discriminate.
      + destruct (hd Now waits); [apply Y|destruct (j_batch key r) as [|b0]; [apply Y|]|].
        * destruct Z as (n & evs & i & u & T & N & Z). exists n, evs, i, u. split; [exact T|]. split; [exact N|]. apply Z; discriminate.
        * exists 0, [], 0, 0. split; [constructor|]. split; [lia|]. split; [intros k; unfold rows_in; cbn [filter map]; now rewrite app_nil_r|]. repeat split; try apply F. all: try (intros Ne; now contradiction Ne). discriminate.
  Qed.
  Definition sums (l : list (nat * nat)) : nat * nat := (list_sum (map fst l), list_sum (map snd l)).
  Lemma run_ok : forall size, 0 < size -> forall calls r, fits size r -> let '(e, r', reports) := run size calls r in
    exists n evs i u, told (firstn n (j_lines key r)) evs i u /\ n <= length (j_lines key r) /\
    (forall k, full k r' = full k r ++ rows_in k evs) /\ list_sum (map fst reports) + j_invalid key r' = i + j_invalid key r /\ list_sum (map snd reports) + j_unknown key r' = u + j_unknown key r /\
    fits size r' /\ j_lines key r' = skipn n (j_lines key r) /\ (e = Stall \/ e = End) /\
    (e = End -> n = length (j_lines key r) /\ (forall k, rows_of k (j_builders key r') = []) /\ j_invalid key r' = 0 /\ j_unknown key r' = 0).
  Proof.
    intros size P calls. induction calls as [|c calls IH]; intros r F; cbn [JsonReaderModel.run].
    - exists 0, [], 0, 0. split; [constructor|]. split; [lia|]. split; [intros k; unfold rows_in; cbn [filter map]; now rewrite app_nil_r|]. repeat split; try apply F; auto; try discriminate.
    - destruct c as [events waits|].
      + unfold JsonReaderModel.read. destruct (loop_ok size P (j_lines key r) events waits r F) as (n & evs & i & u & T & N & K). destruct (loop (j_lines key r) size events waits r) as [e r1].
        destruct K as (K1 & K2 & K3 & K4 & K5 & K6 & K7).
        assert (G : let '(e, r', reports) := run size calls r1 in exists n evs i u, told (firstn n (j_lines key r)) evs i u /\ n <= length (j_lines key r) /\
          (forall k, full k r' = full k r ++ rows_in k evs) /\ list_sum (map fst reports) + j_invalid key r' = i + j_invalid key r /\ list_sum (map snd reports) + j_unknown key r' = u + j_unknown key r /\
          fits size r' /\ j_lines key r' = skipn n (j_lines key r) /\ (e = Stall \/ e = End) /\
          (e = End -> n = length (j_lines key r) /\ (forall k, rows_of k (j_builders key r') = []) /\ j_invalid key r' = 0 /\ j_unknown key r' = 0)).
        { specialize (IH r1 K4). destruct (run size calls r1) as [ [e' r'] reports]. destruct IH as (m & evs' & i' & u' & H1 & H2 & H3 & H4 & H5 & H6 & H7 & H8 & H9). rewrite K5 in H1, H2, H7, H9.
          exists (n + m), (evs ++ evs'), (i + i'), (u + u'). split; [|split].
          - replace (firstn (n + m) (j_lines key r)) with (firstn n (j_lines key r) ++ firstn m (skipn n (j_lines key r))); [now apply told_app|].
            clear. generalize (j_lines key r). induction n as [|n IHn]; intros [|x l]; cbn; try reflexivity; [now rewrite firstn_nil|]. f_equal. apply IHn.
          - rewrite skipn_length in H2. lia.
          - split; [intros k; rewrite H3, K1, rows_in_app; now rewrite app_assoc|]. split; [lia|]. split; [lia|]. split; [exact H6|]. split.
            + rewrite H7. clear. generalize (j_lines key r). induction n as [|n IHn]; intros [|x l]; cbn [skipn plus]; try reflexivity; [now rewrite skipn_nil|apply IHn].
            + split; [exact H8|]. intros E. destruct (H9 E) as (X1 & X2). rewrite skipn_length in X1. split; [lia|exact X2]. }
        destruct e; try exact G. cbn [status]. exists n, evs, i, u. split; [exact T|]. split; [exact N|]. split; [exact K1|]. cbn [map fst snd list_sum j_invalid j_unknown]. cbn. split; [lia|]. split; [lia|]. split; [exact K4|]. split; [exact K5|]. split; [now right|].
        intros _. split; [now apply K7|]. split; [apply K6; discriminate|]. split; reflexivity.
      + cbn [status]. match goal with |- context [run size calls ?q] => set (r1 := q) end. specialize (IH r1 F). destruct (run size calls r1) as [ [e' r'] reports].
        destruct IH as (m & evs' & i' & u' & H1 & H2 & H3 & H4 & H5 & H6 & H7 & H8 & H9). exists m, evs', i', u'. split; [exact H1|]. split; [exact H2|]. split; [exact H3|].
        cbn [map fst snd list_sum]. unfold r1 in H4, H5. cbn [j_invalid j_unknown] in H4, H5. change (list_sum (?a :: ?l)) with (a + list_sum l). cbn. split; [unfold list_sum in *; lia|]. split; [unfold list_sum in *; lia|]. split; [exact H6|]. split; [exact H7|]. split; [exact H8|exact H9].
  Qed.
  Lemma loop_progress : forall size ls events r e r', 0 < events -> loop ls size events [] r = (e, r') -> e = End \/ e = Enough /\ length (j_lines key r') < length ls.
  Proof.
    intros size ls. induction ls as [|l ls IH]; intros [|events] r e r' P H; [lia| |lia|]; cbn [JsonReaderModel.loop hd tl] in H.
    - left. congruence.
    - destruct (line size l r) as [r1 produced].
      assert (FL : forall q, j_lines key (finish q) = j_lines key q).
      { intros q. unfold finish. generalize (order (j_builders key q)). intros bs. revert q. induction bs as [|b bs IHb]; intros q; [reflexivity|]. cbn [fold_left]. rewrite IHb. unfold finish_one. destruct (JsonReaderModel.rows_of _ _ _ _); reflexivity. }
      destruct produced.
      + destruct events as [|events].
        * right. destruct ls as [|l' ls]; cbn [JsonReaderModel.loop] in H; injection H as <- <-; (split; [reflexivity|]); rewrite FL; cbn; lia.
        * destruct (IH (S events) r1 e r' ltac:(lia) H) as [?|(? & ?)]; [now left|right]. split; [assumption|cbn; lia].
      + destruct (IH (S events) r1 e r' ltac:(lia) H) as [?|(? & ?)]; [now left|right]. split; [assumption|cbn; lia].
  Qed.
  Lemma run_complete : forall size calls r, Forall (fun c => exists n, c = Read n [] /\ 0 < n) calls -> length (j_lines key r) < length calls -> fst (fst (run size calls r)) = End.
  Proof.
    intros size calls. induction calls as [|c calls IH]; intros r F L; [cbn in L; lia|]. destruct (Forall_inv F) as (n & -> & P). cbn [JsonReaderModel.run]. unfold JsonReaderModel.read.
    destruct (loop (j_lines key r) size n [] r) as [e r1] eqn:E. destruct (loop_progress size _ _ _ _ _ P E) as [->|(-> & Q)]; [reflexivity|]. apply IH; [exact (Forall_inv_tail F)|]. cbn in L. lia.
  Qed.
End Loop.
