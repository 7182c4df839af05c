(** Lemmas on the export of Zeek logs, for C72. *)
From Coq Require Import List ZArith NArith Bool Arith Lia String Ascii ZifyBool ZifyNat ZifyN.
From Coq Require Import Init.Datatypes.
From Verif Require Import AddressModel AddressProofs DataModel EscapeModel EscapeProofs LiteralModel LiteralProofs CsvModel CsvProofs ZeekModel ZeekProofs.
Import ListNotations.
Open Scope N_scope.
Local Notation length := List.length.
Local Notation concat := List.concat.

(** ** What a file in Zeek's format says *)

(** The pieces of a text between bytes [c]. *)
Fixpoint pieces (c : N) (t : text) : list text :=
  match t with
  | [] => [[] ]
  | d :: r => if d =? c then [] :: pieces c r else match pieces c r with x :: l => (d :: x) :: l | [] => [[d] ] end
  end.
(** What is behind a prefix. *)
Fixpoint strip (p t : text) : option text :=
  match p, t with
  | [], _ => Some t
  | x :: p', y :: t' => if x =? y then strip p' t' else None
  | _ :: _, [] => None
  end.
(** The rows of a file, each with the names and the types that were announced before. *)
Fixpoint sections (fields types : list text) (ls : list text) : list (list text * list text * list text) :=
  match ls with
  | [] => []
  | l :: r =>
      if hd 0 l =? 35 then
        match strip (chars "#fields" ++ [9]) l, strip (chars "#types" ++ [9]) l with
        | Some v, _ => sections (pieces 9 v) types r
        | _, Some v => sections fields (pieces 9 v) r
        | _, _ => sections fields types r
        end
      else (fields, types, pieces 9 l) :: sections fields types r
  end.

(** Values that the writer can put down without a loss, other than reals and times. *)
Definition item_ok (e : kind) (v : data) : Prop :=
  match v, e with
  | DNone, _ => True
  | DBool _, ZBool => True
  | DCount n, ZCount | DCount n, ZPort => n < 2 ^ 64
  | DInt z, ZInt => (- 2 ^ 63 < z < 2 ^ 63)%Z
  | DString s, ZString => Forall (fun c => c < 256 /\ c <> 92) s
  | DAddress a, ZAddress => wf a /\ is_v4 a = true
  | _, _ => False
  end.
Definition printable (k : kind) (v : data) : Prop := item_ok k v \/ exists e l, k = ZList e /\ v = DList l /\ Forall (item_ok e) l.
Definition clean (t : text) : Prop := ~ In 9 t /\ ~ In 10 t /\ ~ In 44 t.
Section Shown.
  Variable A : arith.
  Variable seconds : decimal -> Z.
  (** The text of a value: it says the value; null is a dash, and an empty string is empty. *)
  Inductive item : kind -> data -> text -> Prop :=
  | item_null : forall e, item e DNone (chars "-")
  | item_nothing : item ZString (DString []) []
  | item_plain : forall e v t, plain A seconds e t v -> item e v t.
  Inductive shown : kind -> data -> text -> Prop :=
  | shown_item : forall k v t, item k v t -> shown k v t
  | shown_empty : forall e, shown (ZList e) (DList []) (chars "(empty)")
  | shown_list : forall e vs ts, vs <> [] -> Forall2 (item e) vs ts -> shown (ZList e) (DList vs) (join_text [44] ts).
End Shown.

Lemma pieces_word : forall c t, ~ In c t -> pieces c t = [t].
Proof.
  intros c. induction t as [|d t IH]; intros H; [reflexivity|]. cbn [pieces]. destruct (N.eqb_spec d c) as [->|]; [exfalso; apply H; now left|].
  rewrite IH; [reflexivity|]. intros I. apply H. now right.
Qed.
Lemma pieces_more : forall c t r, ~ In c t -> pieces c (t ++ c :: r) = t :: pieces c r.
Proof.
  intros c t r. induction t as [|d t IH]; intros H.
  - cbn [app pieces]. now rewrite N.eqb_refl.
  - cbn [app pieces]. destruct (N.eqb_spec d c) as [->|]; [exfalso; apply H; now left|]. rewrite IH; [reflexivity|]. intros I. apply H. now right.
Qed.
Lemma pieces_join : forall c ts, ts <> [] -> Forall (fun t => ~ In c t) ts -> pieces c (join_text [c] ts) = ts.
Proof.
  intros c [|t ts] N F; [contradiction|]. clear N. cbn [join_text]. revert t F. induction ts as [|u ts IH]; intros t F.
  - cbn [flat_map]. rewrite app_nil_r. apply pieces_word. exact (Forall_inv F).
  - cbn [flat_map app]. rewrite pieces_more by exact (Forall_inv F). f_equal. apply IH. exact (Forall_inv_tail F).
Qed.
Lemma pieces_lines : forall ls, Forall (fun l => ~ In 10 l) ls -> pieces 10 (lines_text ls) = ls ++ [[] ].
Proof.
  induction ls as [|l ls IH]; intros F; [reflexivity|]. cbn [lines_text flat_map]. rewrite <- app_assoc. cbn [app]. rewrite pieces_more by exact (Forall_inv F).
  unfold lines_text in IH. now rewrite IH by exact (Forall_inv_tail F).
Qed.

(** ** Values *)

Lemma digits_not : forall ds c, forallb isdigit ds = true -> isdigit c = false -> ~ In c ds.
Proof. intros ds c D C I. rewrite forallb_forall in D. rewrite (D _ I) in C. discriminate. Qed.
Lemma digits_clean : forall ds, forallb isdigit ds = true -> clean ds.
Proof. intros ds D. repeat split; now apply digits_not. Qed.
Lemma clean_app : forall a b, clean a -> clean b -> clean (a ++ b).
Proof. intros a b (A1 & A2 & A3) (B1 & B2 & B3). repeat split; intros I; apply in_app_or in I; destruct I; contradiction. Qed.
Lemma clean_cons : forall c t, c <> 9 -> c <> 10 -> c <> 44 -> clean t -> clean (c :: t).
Proof. intros c t H1 H2 H3 (A1 & A2 & A3). repeat split; intros [I|I]; congruence || contradiction. Qed.
Lemma clean_nil : clean []. Proof. repeat split; intros []. Qed.
Lemma hex_digit_ok : forall n, n < 16 -> hexd (hex_digit n) n /\ hex_digit n <> 9 /\ hex_digit n <> 10 /\ hex_digit n <> 44.
Proof.
  intros n H. rewrite <- (N2Nat.id n). assert (L : (N.to_nat n < 16)%nat) by lia. generalize dependent (N.to_nat n). clear. intros n L.
  do 16 (destruct n as [|n]; [split; [right; reflexivity|repeat split; discriminate]|]). lia.
Qed.
Lemma string_says : forall s, Forall (fun c => c < 256 /\ c <> 92) s -> bytes_say (flat_map string_chr s) s /\ clean (flat_map string_chr s).
Proof.
  intros s H. induction H as [|c s (C1 & C2) F (IH1 & IH2)]; cbn [flat_map]; [split; [constructor|apply clean_nil]|]. unfold string_chr at 1 3.
  destruct (iscntrl c || (c =? 9) || (c =? 44)) eqn:E.
  - unfold byte_to_hex. replace (N.land (N.shiftr c 4) 15) with (c / 16).
    2:{ change 15 with (N.ones 4). rewrite N.land_ones, N.shiftr_div_pow2. change (2 ^ 4) with 16. symmetry. apply N.mod_small. apply N.div_lt_upper_bound; lia. }
    replace (N.land c 15) with (c mod 16) by (change 15 with (N.ones 4); now rewrite N.land_ones).
    assert (D1 : c / 16 < 16) by (apply N.div_lt_upper_bound; lia). assert (D2 : c mod 16 < 16) by (apply N.mod_lt; lia).
    destruct (hex_digit_ok _ D1) as (X1 & X2 & X3 & X4), (hex_digit_ok _ D2) as (Y1 & Y2 & Y3 & Y4). cbn [app]. split.
    + replace (c :: s) with (16 * (c / 16) + c mod 16 :: s); [now constructor|]. f_equal. symmetry. apply N.div_mod'.
    + repeat apply clean_cons; auto; discriminate.
  - apply orb_false_iff in E. destruct E as [E E3]. apply orb_false_iff in E. destruct E as [E1 E2]. cbn [app]. split; [now constructor|]. unfold iscntrl in E1. apply clean_cons; [lia|lia|lia|exact IH2].
Qed.
Section Values.
  Variable A : arith.
  Variable seconds : decimal -> Z.
  Variable real6 : N -> text.
  Variable seconds6 : Z -> text.
  Notation render := (render A real6 seconds6).
  Notation plain := (plain A seconds).
  Notation item := (item A seconds).
  Notation shown := (shown A seconds).

  Lemma digits_plain : forall n, n < 10 ^ 20 -> forallb isdigit (digits n) = true /\ (1 <= length (digits n) <= 20)%nat /\ value (digits n) = n.
  Proof. intros n H. destruct (digits_spec n H) as (D1 & D2 & D3). rewrite <- value_num. auto. Qed.
  Lemma item_renders : forall e v, item_ok e v -> exists t, render v = (t, Done) /\ item e v t /\ clean t.
  Proof.
    intros e v H. destruct v; cbn [item_ok] in H; try contradiction.
    - exists (chars "-"). split; [reflexivity|]. split; [constructor|repeat split; cbn; intuition discriminate].
    - destruct e; try contradiction. exists [if b then chr "T" else chr "F"]. split; [reflexivity|]. split; [apply item_plain; destruct b; constructor|].
      destruct b; repeat split; cbn; intuition discriminate.
    - destruct e; try contradiction. cbn [ZeekModel.render show]. unfold show_int. destruct (Z.eqb_spec z (- 2 ^ 63)%Z); [lia|].
      assert (P : forall m, m < 2 ^ 63 -> (1 <= length (digits m) <= 19)%nat /\ forallb isdigit (digits m) = true /\ value (digits m) = m).
      { intros m M. assert (Q : m < 10 ^ 20) by (change (2 ^ 63) with 9223372036854775808 in M; change (10 ^ 20) with 100000000000000000000; lia).
        destruct (digits_plain m Q) as (D1 & D2 & D3). split; [|split; [exact D1|exact D3] ]. split; [lia|]. apply (digits_len m 19); [|lia].
        change (10 ^ N.of_nat 19) with 10000000000000000000. change (2 ^ 63) with 9223372036854775808 in M. lia. }
      destruct (Z.ltb_spec z 0).
      + destruct (P (Z.to_N (- z)) ltac:(change (2 ^ 63) with 9223372036854775808; lia)) as (L & D & V). eexists. split; [reflexivity|]. split.
        * apply item_plain. replace z with (- Z.of_N (value (digits (Z.to_N (- z)))))%Z at 2 by (rewrite V; lia).
          apply (plain_int A seconds [45] (digits (Z.to_N (- z)))); [now right; right|exact D|exact L|]. rewrite V. lia.
        * apply clean_cons; [discriminate|discriminate|discriminate|]. now apply digits_clean.
      + destruct (P (Z.to_N z) ltac:(change (2 ^ 63) with 9223372036854775808; lia)) as (L & D & V). eexists. split; [reflexivity|]. split.
        * apply item_plain. replace z with (Z.of_N (value (digits (Z.to_N z)))) at 2 by (rewrite V; lia).
          apply (plain_int A seconds [43] (digits (Z.to_N z))); [now right; left|exact D|exact L|]. rewrite V. lia.
        * apply clean_cons; [discriminate|discriminate|discriminate|]. now apply digits_clean.
    - assert (K : (e = ZCount \/ e = ZPort) /\ n < 2 ^ 64) by (destruct e; tauto). clear H. destruct K as [K B]. exists (digits n). split; [reflexivity|].
      destruct (digits_plain n) as (D1 & D2 & D3). { eapply N.lt_trans; [exact B|reflexivity]. }
      split; [|now apply digits_clean]. apply item_plain. replace n with (value (digits n)) at 2. apply plain_count; auto. now rewrite D3.
    - destruct e; try contradiction. exists (flat_map string_chr s). split; [reflexivity|]. destruct (string_says _ H) as (B & C). split; [|exact C].
      destruct s as [|c s]; [constructor|]. apply item_plain. constructor; [|exact B]. cbn [flat_map]. unfold string_chr at 1. destruct (_ || _); discriminate.
    - destruct e; try contradiction. destruct H as [W V]. exists (show_addr A a). split; [reflexivity|]. split; [now apply item_plain; constructor|].
      destruct (v4_shape a W V) as (x & y & z & w & -> & X & Y & Z0 & W'). rewrite show_v4.
      assert (P : forall m, m < 256 -> clean (digits m)) by (intros m M; apply digits_clean; apply (byte_digits m M)).
      repeat (apply clean_app; [now apply P|apply clean_cons; [discriminate|discriminate|discriminate|] ]). now apply P.
  Qed.
  Lemma elements_ok : forall e vs, Forall (item_ok e) vs -> forall first, exists ts, Forall2 (item e) vs ts /\ Forall clean ts /\
    elements render first vs = (match ts with [] => [] | t :: r => (if first then t else 44 :: t) ++ flat_map (fun y => [44] ++ y) r end, Done).
  Proof.
    intros e vs H. induction H as [|v vs V F IH]; intros first; [exists []; repeat split; constructor|].
    destruct (item_renders _ _ V) as (t & R & I & C). destruct (IH false) as (ts & T1 & T2 & T3). exists (t :: ts). repeat split; try (constructor; assumption).
    cbn [elements]. rewrite R. change ((fix go (first0 : bool) (l : list data) {struct l} : text * outcome := _) false vs) with (elements render false vs). rewrite T3.
    destruct ts as [|u ts]; [reflexivity|]. reflexivity.
  Qed.
  Lemma renders : forall k v, printable k v -> exists t, render v = (t, Done) /\ shown k v t /\ ~ In 9 t /\ ~ In 10 t.
  Proof.
    intros k v [H|(e & l & -> & -> & F)].
    - destruct (item_renders _ _ H) as (t & R & I & C). exists t. split; [exact R|]. split; [now constructor|]. split; apply C.
    - destruct l as [|v l].
      + exists (chars "(empty)"). split; [reflexivity|]. split; [apply shown_empty|]. split; cbn; intuition discriminate.
      + destruct (elements_ok _ _ F true) as (ts & T1 & T2 & T3). exists (join_text [44] ts). split; [|split; [apply shown_list; [discriminate|exact T1] |] ].
        * change (render (DList (v :: l))) with (elements render true (v :: l)). rewrite T3. inversion T1; subst. reflexivity.
        * assert (G : forall c, (c = 9 \/ c = 10) -> ~ In c (join_text [44] ts)).
          { intros c Hc. clear -T2 Hc. destruct ts as [|t ts]; [intros []|]. cbn [join_text]. intros I. apply in_app_or in I. destruct I as [I|I].
            - destruct (Forall_inv T2) as (C1 & C2 & _). destruct Hc; subst; contradiction.
            - apply in_flat_map in I. destruct I as (u & U & [I|I]); [destruct Hc; subst; discriminate|].
              apply Forall_inv_tail in T2. rewrite Forall_forall in T2. destruct (T2 _ U) as (C1 & C2 & _). destruct Hc; subst; contradiction. }
          split; apply G; tauto.
  Qed.
  Lemma row_renders : forall ks vs, Forall2 printable ks vs -> forall first, exists ts,
    row A real6 seconds6 first vs = (match ts with [] => [] | t :: r => (if first then t else 9 :: t) ++ flat_map (fun y => [9] ++ y) r end, Done) /\
    length ts = length vs /\ Forall2 (fun kv t => shown (fst kv) (snd kv) t) (combine ks vs) ts /\ Forall (fun t => ~ In 9 t /\ ~ In 10 t) ts /\
    ts = map (fun v => fst (render v)) vs.
  Proof.
    intros ks vs H. induction H as [|k v ks vs P F IH]; intros first; [exists []; repeat split; constructor|].
    destruct (renders _ _ P) as (t & R & S0 & C1 & C2). destruct (IH false) as (ts & T1 & T2 & T3 & T4 & T5). exists (t :: ts). cbn [row]. rewrite R, T1. repeat split.
    - destruct ts; reflexivity.
    - cbn [List.length]. now rewrite T2.
    - cbn [combine]. constructor; assumption.
    - constructor; [now split|exact T4].
    - cbn [map]. rewrite R. cbn [fst]. now rewrite T5.
  Qed.

  (** ** Rows and slices *)

  Notation rowt := (fun vs => fst (row A real6 seconds6 true vs)).
  (** The text of the value begins with a number sign. *)
  Definition hash (v : data) : Prop := exists s, v = DString (35 :: s) \/ exists l, v = DList (DString (35 :: s) :: l).
  Lemma digit_hd : forall ds r, forallb isdigit ds = true -> (1 <= length ds)%nat -> hd 0 (ds ++ r) <> 35.
  Proof. intros [|d ds] r D L; [cbn in L; lia|]. cbn in D |- *. intros ->. discriminate. Qed.
  Lemma item_hd : forall e v r, item_ok e v -> ~ (exists s, v = DString (35 :: s)) -> hd 0 r <> 35 -> hd 0 (fst (render v) ++ r) <> 35.
  Proof.
    intros e v r H K R. destruct v; cbn [item_ok] in H; try contradiction.
    - discriminate.
    - destruct b; discriminate.
    - cbn [ZeekModel.render show]. unfold show_int. destruct (Z.eqb_spec z (- 2 ^ 63)%Z); [exact R|]. destruct (z <? 0)%Z; discriminate.
    - cbn [ZeekModel.render show fst]. assert (B : n < 2 ^ 64) by (destruct e; tauto). destruct (digits_plain n) as (D1 & D2 & D3). { eapply N.lt_trans; [exact B|reflexivity]. }
      apply digit_hd; [exact D1|lia].
    - destruct s as [|c s]; [exact R|]. cbn [ZeekModel.render fst flat_map]. unfold string_chr at 1. destruct (_ || _).
      + unfold byte_to_hex. discriminate.
      + cbn. intros ->. apply K. now exists s.
    - destruct e; try contradiction. destruct H as [W V]. cbn [ZeekModel.render show fst]. destruct (v4_shape a W V) as (x & y & z & w & -> & X & Y & Z0 & W'). rewrite show_v4.
      destruct (byte_digits x X) as (D1 & D2 & D3 & D4). rewrite <- app_assoc. apply digit_hd; [assumption|lia].
  Qed.
  Lemma value_hd : forall k v r, printable k v -> ~ hash v -> hd 0 r <> 35 -> hd 0 (fst (render v) ++ r) <> 35.
  Proof.
    intros k v r [H|(e & l & -> & -> & F)] K R.
    - eapply item_hd; eauto. intros (s & ->). apply K. exists s. now left.
    - destruct l as [|v l]; [discriminate|]. destruct (elements_ok _ _ (Forall_inv_tail F) false) as (ts & T1 & T2 & T3).
      destruct (item_renders _ _ (Forall_inv F)) as (t & E & _). change (render (DList (v :: l))) with (elements render true (v :: l)).
      cbn [elements]. rewrite E. change ((fix go (first0 : bool) (l : list data) {struct l} : text * outcome := _) false l) with (elements render false l). rewrite T3. cbn [fst].
      rewrite <- app_assoc. replace t with (fst (render v)) by (now rewrite E). eapply item_hd; [exact (Forall_inv F)| |].
      + intros (s & ->). apply K. exists s. right. now exists l.
      + destruct ts; [exact R|discriminate].
  Qed.
  Lemma row_line : forall ks vs, Forall2 printable ks vs -> vs <> [] -> (forall v, hd_error vs = Some v -> ~ hash v) -> exists ts,
    row A real6 seconds6 true vs = (join_text [9] ts, Done) /\ ts = map (fun v => fst (render v)) vs /\
    Forall2 (fun kv t => shown (fst kv) (snd kv) t) (combine ks vs) ts /\
    pieces 9 (join_text [9] ts) = ts /\ ~ In 10 (join_text [9] ts) /\ hd 0 (join_text [9] ts) <> 35 /\ Forall (fun t => ~ In 9 t) ts.
  Proof.
    intros ks vs H N K. destruct (row_renders _ _ H true) as (ts & T1 & T2 & T3 & T4 & T5). exists ts. rewrite T1.
    assert (T6 : ts <> []) by (intros ->; destruct vs; [contradiction|discriminate]). assert (T7 : Forall (fun t => ~ In 9 t) ts) by (eapply Forall_impl; [|exact T4]; intros a (? & ?); assumption).
    split; [destruct ts; [contradiction|reflexivity] |]. split; [exact T5|]. split; [exact T3|]. split; [now apply pieces_join|]. split; [|split; [|exact T7] ].
    - clear -T4. destruct ts as [|t ts]; [intros []|]. cbn [join_text]. intros I. apply in_app_or in I. destruct I as [I|I].
      + now apply (proj2 (Forall_inv T4)).
      + apply in_flat_map in I. destruct I as (u & U & [I|I]); [discriminate|]. apply Forall_inv_tail in T4. rewrite Forall_forall in T4. now apply (T4 _ U).
    - destruct H as [|k v ks vs P F]; [contradiction|]. rewrite T5. cbn [map join_text]. eapply value_hd; [exact P|apply K; reflexivity|]. destruct vs; [discriminate|]. cbn. discriminate.
  Qed.

  (** A slice that can be written. *)
  Fixpoint writable (k : kind) : Prop := match k with ZEnum | ZMap => False | ZList e => writable e | _ => True end.
  Definition slice_ok (x : slice) : Prop :=
    s_columns x <> [] /\ ~ In 10 (s_name x) /\ Forall (fun f => ~ In 9 (fst f) /\ ~ In 10 (fst f) /\ writable (snd f)) (s_columns x) /\
    Forall (fun vs => Forall2 printable (map snd (s_columns x)) vs /\ forall v, hd_error vs = Some v -> ~ hash v) (s_rows x).
  (** What a row of a file says about an event. *)
  Definition row_of (e : slice * list data) (r : list text * list text * list text) : Prop :=
    let '(fields, types, cells) := r in
    fields = map fst (s_columns (fst e)) /\ Forall2 named (map snd (s_columns (fst e))) types /\
    Forall2 (fun kv t => shown (fst kv) (snd kv) t) (combine (map snd (s_columns (fst e))) (snd e)) cells.
  Definition log_rows (out : text) : list (list text * list text * list text) := sections [] [] (removelast (pieces 10 out)).
  Definition events (xs : list slice) : list (slice * list data) := flat_map (fun x => map (fun vs => (x, vs)) (s_rows x)) xs.

  Lemma kind_clean : forall k c, c = 9 \/ c = 10 -> ~ In c (kind_text k).
  Proof.
    induction k; intros c Hc I; cbn [kind_text] in I; try (apply in_app_or in I; destruct I as [I|I]; [|apply in_app_or in I; destruct I as [I|I]; [now apply (IHk c Hc)|] ]);
      cbn in I; destruct Hc; subst; intuition discriminate.
  Qed.
  Lemma kind_named : forall k, writable k -> named k (kind_text k).
  Proof. induction k; intros H; try contradiction; try constructor. now apply IHk. Qed.
  Lemma strip_app : forall p t, strip p (p ++ t) = Some t.
  Proof. induction p as [|x p IH]; intros t; [reflexivity|]. cbn [app strip]. now rewrite N.eqb_refl. Qed.
  Lemma tabs_join : forall {B} (f : B -> text) l, l <> [] -> flat_map (fun x => 9 :: f x) l = 9 :: join_text [9] (map f l).
  Proof. intros B f [|x l] N; [contradiction|]. cbn [flat_map map join_text app]. f_equal. f_equal. clear. induction l as [|y l IH]; [reflexivity|]. cbn [flat_map map app]. now rewrite IH. Qed.
  Lemma sections_skip : forall f t l r, hd 0 l =? 35 = true -> strip (chars "#fields" ++ [9]) l = None -> strip (chars "#types" ++ [9]) l = None ->
    sections f t (l :: r) = sections f t r.
  Proof. intros f t l r H1 H2 H3. cbn [sections]. now rewrite H1, H2, H3. Qed.
  Lemma header_sections : forall opened x, s_columns x <> [] -> Forall (fun f => ~ In 9 (fst f)) (s_columns x) -> forall f t rest,
    sections f t (header opened x ++ rest) = sections (map fst (s_columns x)) (map (fun y => kind_text (snd y)) (s_columns x)) rest.
  Proof.
    intros opened x N K f t rest. unfold header. rewrite !tabs_join by exact N. cbn [app]. do 5 (rewrite sections_skip by reflexivity).
    assert (E : forall f t, sections f t ([chars "#fields" ++ 9 :: join_text [9] (map fst (s_columns x)); chars "#types" ++ 9 :: join_text [9] (map (fun y => kind_text (snd y)) (s_columns x))] ++ rest) =
      sections (map fst (s_columns x)) (map (fun y => kind_text (snd y)) (s_columns x)) rest).
    { clear f t. intros f t.
      assert (M : forall {B} (g : (text * kind) -> B), map g (s_columns x) <> []) by (intros B g; destruct (s_columns x); [contradiction|discriminate]).
      replace (chars "#fields" ++ 9 :: join_text [9] (map fst (s_columns x))) with ((chars "#fields" ++ [9]) ++ join_text [9] (map fst (s_columns x))) by (now rewrite <- app_assoc).
      replace (chars "#types" ++ 9 :: join_text [9] (map (fun y => kind_text (snd y)) (s_columns x))) with ((chars "#types" ++ [9]) ++ join_text [9] (map (fun y => kind_text (snd y)) (s_columns x))) by (now rewrite <- app_assoc).
      cbn [app sections]. rewrite strip_app.
      change (hd 0 ((chars "#fields" ++ [9]) ++ join_text [9] (map fst (s_columns x))) =? 35) with true. cbn iota.
      rewrite (pieces_join 9 (map fst (s_columns x))); [|apply M|now apply Forall_map].
      match goal with |- context [strip (chars "#fields" ++ [9]) ?l] => change (strip (chars "#fields" ++ [9]) l) with (@None text); change (hd 0 l =? 35) with true end. cbn iota.
      rewrite strip_app. rewrite (pieces_join 9 (map _ (s_columns x))); [reflexivity|apply M|]. apply Forall_map. apply Forall_forall. intros y _. apply kind_clean. now left. }
    destruct opened as [o|]; cbn [app]; [rewrite sections_skip by reflexivity|]; apply E.
  Qed.
  Lemma header_clean : forall opened x, slice_ok x -> (forall o, opened = Some o -> ~ In 10 o) -> Forall (fun l => ~ In 10 l) (header opened x).
  Proof.
    intros opened x (N & M & K & _) O. unfold header.
    assert (P : forall (p : text) v, ~ In 10 p -> ~ In 10 v -> ~ In 10 (p ++ v)) by (intros p v P1 P2 I; apply in_app_or in I; tauto).
    assert (Q : forall v, ~ In 10 v -> ~ In 10 (9 :: v)) by (intros v V [I|I]; [discriminate|contradiction]).
    assert (R : forall s v, forallb (fun c => negb (c =? 10)) s = true -> ~ In 10 v -> ~ In 10 (s ++ v)).
    { intros s v S0 V. apply P; [|exact V]. rewrite forallb_forall in S0. intros I. specialize (S0 _ I). discriminate. }
    cbn [app]. apply Forall_cons; [|apply Forall_cons; [|apply Forall_cons; [|apply Forall_cons; [|apply Forall_cons] ] ] ].
    - apply R; [reflexivity|]. intros [I|[] ]; discriminate.
    - apply R; [reflexivity|]. intros [I|[I|[] ] ]; discriminate.
    - apply R; [reflexivity|]. apply Q. cbn. intuition discriminate.
    - apply R; [reflexivity|]. apply Q. cbn. intuition discriminate.
    - apply R; [reflexivity|]. apply Q. unfold path_of. destruct (starts _ _); [|exact M]. intros I. apply M. rewrite <- (firstn_skipn 5 (s_name x)). apply in_or_app. now right.
    - apply Forall_app. split; [destruct opened as [o|]; [|constructor]; constructor; [|constructor]; apply R; [reflexivity|]; apply Q; now apply O|].
      apply Forall_cons; [|apply Forall_cons; [|constructor] ].
      + apply R; [reflexivity|]. intros I. apply in_flat_map in I. destruct I as (y & Y & I). rewrite Forall_forall in K. destruct (K _ Y) as (K1 & K2 & _). destruct I as [I|I]; [discriminate|contradiction].
      + apply R; [reflexivity|]. intros I. apply in_flat_map in I. destruct I as (y & Y & I). destruct I as [I|I]; [discriminate|]. revert I. apply kind_clean. now right.
  Qed.
  Lemma rows_lines : forall ks rs, Forall (fun vs => Forall2 printable ks vs /\ forall v, hd_error vs = Some v -> ~ hash v) rs -> ks <> [] -> forall out,
    rows A real6 seconds6 rs {| c_buf := []; c_out := out |} = ({| c_buf := []; c_out := out ++ lines_text (map rowt rs) |}, Done).
  Proof.
    intros ks rs H NK. induction H as [|vs rs (P & K) F IH]; intros out; cbn [rows map].
    - cbn. now rewrite app_nil_r.
    - assert (N : vs <> []) by (intros ->; inversion P; subst; contradiction). destruct (row_line _ _ P N K) as (ts & E & _). rewrite E. cbn [c_buf c_out app fst]. rewrite IH. do 2 f_equal.
      unfold lines_text. cbn [flat_map]. now rewrite <- !app_assoc.
  Qed.
  Lemma row_sections : forall x, slice_ok x -> forall rest, exists R, Forall2 row_of (map (fun vs => (x, vs)) (s_rows x)) R /\
    Forall (fun l => ~ In 10 l) (map rowt (s_rows x)) /\
    sections (map fst (s_columns x)) (map (fun y => kind_text (snd y)) (s_columns x)) (map rowt (s_rows x) ++ rest) =
    R ++ sections (map fst (s_columns x)) (map (fun y => kind_text (snd y)) (s_columns x)) rest.
  Proof.
    intros x (N & M & K & P) rest. induction P as [|vs rs (P & H) F IH]; cbn [map].
    - exists []. repeat split; constructor.
    - destruct IH as (R & R1 & R2 & R3). assert (NV : vs <> []) by (intros ->; inversion P as [E|]; apply N; destruct (s_columns x); [reflexivity|discriminate]).
      destruct (row_line _ _ P NV H) as (ts & E & _ & T3 & T4 & T5 & T6 & _).
      exists ((map fst (s_columns x), map (fun y => kind_text (snd y)) (s_columns x), ts) :: R). rewrite E. cbn [fst]. split; [|split; [now constructor|] ].
      + constructor; [|exact R1]. cbn [row_of fst snd]. split; [reflexivity|]. split; [|exact T3].
        clear -K. induction K as [|y l (_ & _ & W) K IH]; cbn [map]; constructor; [now apply kind_named|exact IH].
      + cbn [app sections]. destruct (N.eqb_spec (hd 0 (join_text [9] ts)) 35); [contradiction|]. rewrite T4, R3. reflexivity.
  Qed.
  (** The text that has been written: its lines, what they say, and the header they end with. *)
  Definition told (xs : list slice) (w : console) : Prop :=
    c_buf (o_child w) = [] /\ exists ls R f t, c_out (o_child w) = lines_text ls /\ Forall (fun l => ~ In 10 l) ls /\ Forall2 row_of (events xs) R /\
    (forall more, sections [] [] (ls ++ more) = R ++ sections f t more) /\
    match o_last w with Some (n, cs) => f = map fst cs /\ t = map (fun y => kind_text (snd y)) cs | None => True end.
  Lemma columns_eq : forall a b, columns_eqb a b = true -> a = b.
  Proof.
    assert (K : forall a b, kind_eqb a b = true -> a = b) by (induction a; destruct b; cbn; intros H; try discriminate; try reflexivity; f_equal; auto).
    induction a as [|x a IH]; destruct b as [|y b]; cbn; intros H; try discriminate; [reflexivity|]. apply andb_true_iff in H. destruct H as [H H3]. apply andb_true_iff in H. destruct H as [H1 H2].
    rewrite (IH _ H3). apply eqb_text in H1. apply K in H2. destruct x, y. cbn in *. now subst.
  Qed.
  Lemma write_told : forall opened xs x w, (forall o, opened = Some o -> ~ In 10 o) -> slice_ok x -> told xs w ->
    exists w', write A real6 seconds6 opened x w = (w', Done) /\ told (xs ++ [x]) w'.
  Proof.
    intros opened xs x w O X (B & ls & R & f & t & W1 & W2 & W3 & W4 & W5). unfold write. destruct w as [la [buf out] ]. cbn [o_child o_last c_buf c_out] in *. subst buf out.
    assert (NX : map snd (s_columns x) <> []) by (destruct X as (N & _); destruct (s_columns x); [contradiction|discriminate]).
    set (same := match la with Some (n, cs) => bytes_eqb n (s_name x) && columns_eqb cs (s_columns x) | None => false end).
    set (ls' := ls ++ (if same then [] else header opened x)).
    replace (if same then {| c_buf := []; c_out := lines_text ls |} else {| c_buf := []; c_out := lines_text ls ++ lines_text (header opened x) |}) with {| c_buf := []; c_out := lines_text ls' |}.
    2:{ unfold ls', lines_text. destruct same; [now rewrite app_nil_r|now rewrite flat_map_app]. }
    rewrite (rows_lines (map snd (s_columns x))); [|apply X|exact NX]. eexists. split; [reflexivity|]. split; [reflexivity|]. cbn [o_child o_last c_out].
    destruct (row_sections x X []) as (R' & _ & R2 & _). clear R'.
    assert (S0 : exists R', Forall2 row_of (map (fun vs => (x, vs)) (s_rows x)) R' /\ forall more,
      sections (map fst (s_columns x)) (map (fun y => kind_text (snd y)) (s_columns x)) (map rowt (s_rows x) ++ more) =
      R' ++ sections (map fst (s_columns x)) (map (fun y => kind_text (snd y)) (s_columns x)) more).
    { clear -X. destruct X as (N & M & K & P). induction P as [|vs rs (P & H) F IH]; cbn [map].
      - exists []. split; [constructor|reflexivity].
      - destruct IH as (R & R1 & R3). assert (NV : vs <> []) by (intros ->; inversion P as [E|]; apply N; destruct (s_columns x); [reflexivity|discriminate]).
        destruct (row_line _ _ P NV H) as (ts & E & _ & T3 & T4 & T5 & T6 & _).
        exists ((map fst (s_columns x), map (fun y => kind_text (snd y)) (s_columns x), ts) :: R). rewrite E. cbn [fst]. split.
        + constructor; [|exact R1]. cbn [row_of fst snd]. split; [reflexivity|]. split; [|exact T3].
          clear -K. induction K as [|y l (_ & _ & W) K IH]; cbn [map]; constructor; [now apply kind_named|exact IH].
        + intros more. cbn [app sections]. destruct (N.eqb_spec (hd 0 (join_text [9] ts)) 35); [contradiction|]. rewrite T4, R3. reflexivity. }
    destruct S0 as (R' & R1 & R3).
    exists (ls' ++ map rowt (s_rows x)), (R ++ R'), (map fst (s_columns x)), (map (fun y => kind_text (snd y)) (s_columns x)).
    split; [unfold lines_text; now rewrite flat_map_app|]. split; [|split; [|split] ].
    - apply Forall_app. split; [|exact R2]. unfold ls'. apply Forall_app. split; [exact W2|]. destruct same; [constructor|now apply header_clean].
    - unfold events. rewrite flat_map_app. cbn [flat_map]. rewrite app_nil_r. now apply Forall2_app.
    - intros more. unfold ls'. rewrite <- !app_assoc. rewrite W4. f_equal. rewrite <- R3. unfold same. destruct la as [ [n cs]|].
      + destruct (bytes_eqb n (s_name x) && columns_eqb cs (s_columns x)) eqn:E.
        * apply andb_true_iff in E. destruct E as [_ E]. apply columns_eq in E. subst cs. destruct W5 as (-> & ->). reflexivity.
        * apply header_sections; [apply X|]. destruct X as (_ & _ & K & _). eapply Forall_impl; [|exact K]. intros a (? & _). assumption.
      + apply header_sections; [apply X|]. destruct X as (_ & _ & K & _). eapply Forall_impl; [|exact K]. intros a (? & _). assumption.
    - split; reflexivity.
  Qed.
  Lemma all_told : forall opened, (forall o, opened = Some o -> ~ In 10 o) -> forall ys xs w, Forall slice_ok ys -> told xs w ->
    exists w', write_all A real6 seconds6 opened ys w = (w', Done) /\ told (xs ++ ys) w'.
  Proof.
    intros opened O. induction ys as [|y ys IH]; intros xs w F T; cbn [write_all]; [exists w; rewrite app_nil_r; now split|].
    destruct (write_told opened xs y w O (Forall_inv F) T) as (w1 & E & T1). rewrite E. destruct (IH (xs ++ [y]) w1 (Forall_inv_tail F) T1) as (w2 & E2 & T2).
    exists w2. rewrite <- app_assoc in T2. now split.
  Qed.
  Lemma told_fresh : told [] fresh.
  Proof. split; [reflexivity|]. exists [], [], [], []. repeat split; constructor. Qed.
  Lemma removelast_snoc : forall {B} (l : list B) x, removelast (l ++ [x]) = l.
  Proof. intros B l x. rewrite removelast_app by discriminate. cbn. apply app_nil_r. Qed.
  Lemma told_rows : forall xs w, told xs w -> Forall2 row_of (events xs) (log_rows (c_out (o_child w))).
  Proof.
    intros xs w (_ & ls & R & f & t & W1 & W2 & W3 & W4 & _). unfold log_rows. rewrite W1, pieces_lines by exact W2. rewrite removelast_snoc.
    specialize (W4 []). rewrite !app_nil_r in W4. now rewrite W4.
  Qed.

  (** ** Importing what was exported, under a header of Zeek *)

  Definition solid (e : kind) (v : data) : Prop := item_ok e v /\ v <> DNone /\ ~ In v [DString []; DString (chars "-"); DString (chars "(empty)")].
  Definition readable (k : kind) (v : data) : Prop := v = DNone \/ solid k v \/ exists e l, k = ZList e /\ v = DList l /\ Forall (solid e) l.
  Lemma readable_printable : forall k v, readable k v -> printable k v.
  Proof.
    intros k v [->|[ (H & _)|(e & l & -> & -> & F)] ]; [left; exact I|now left|]. right. exists e, l. repeat split. eapply Forall_impl; [|exact F]. intros a (? & _). assumption.
  Qed.
  Lemma plain_words : forall e t v, plain e t v -> t <> [] /\ (t = chars "-" -> v = DString t) /\ (t = chars "(empty)" -> v = DString t).
  Proof.
    intros e t v H.
    assert (D : forall ds c l r, forallb isdigit ds = true -> (1 <= length ds)%nat -> isdigit c = false -> ds ++ r <> c :: l).
    { intros [|d ds] c l r D L C E; [cbn in L; lia|]. injection E as -> _. cbn in D. now rewrite C in D. }
    destruct H as [| |k ds K D1 D2 D3|sg ds SG D1 D2 z Z0|k sg i f v SG D1 D2 L1 L2 d K|t s N B|a W V].
    - repeat split; discriminate.
    - repeat split; discriminate.
    - repeat split.
      + intros ->. cbn in D2. lia.
      + intros E. exfalso. apply (D ds 45 [] []); [exact D1|lia|reflexivity|]. now rewrite app_nil_r.
      + intros E. exfalso. apply (D ds 40 (chars "empty)") []); [exact D1|lia|reflexivity|]. now rewrite app_nil_r.
    - assert (M : ds <> []) by (intros ->; cbn in D2; lia). repeat split.
      + intros E. apply app_eq_nil in E. now destruct E.
      + intros E. exfalso. destruct SG as [->|[->| ->] ]; [|discriminate|injection E as ->; contradiction].
        apply (D ds 45 [] []); [exact D1|lia|reflexivity|]. rewrite app_nil_r. exact E.
      + intros E. exfalso. destruct SG as [->|[->| ->] ]; [|discriminate|discriminate]. apply (D ds 40 (chars "empty)") []); [exact D1|lia|reflexivity|]. rewrite app_nil_r. exact E.
    - repeat split.
      + intros E. apply app_eq_nil in E. destruct E as [_ E]. apply app_eq_nil in E. destruct E. discriminate.
      + intros E. exfalso. apply (f_equal (@List.length N)) in E. rewrite !app_length in E. cbn in E. lia.
      + intros E. exfalso. destruct SG as [->|[->| ->] ]; [|discriminate|discriminate]. exact (D i 40 (chars "empty)") (46 :: f) D1 ltac:(lia) eq_refl E).
    - split; [exact N|]. split; intros ->.
      + inversion B as [|? ? ? ? B1|]; subst. inversion B1; subst. reflexivity.
      + repeat match goal with H : bytes_say (_ :: _) _ |- _ => inversion H; clear H; subst | H : bytes_say [] _ |- _ => inversion H; clear H; subst
          | H : bytes_say (chars _) _ |- _ => inversion H; clear H; subst end. reflexivity.
    - destruct (v4_shape a W V) as (x & y & z & w & -> & X & Y & Z0 & W'). rewrite show_v4. destruct (byte_digits x X) as (D1 & D2 & D3 & D4). repeat split.
      + intros E. apply app_eq_nil in E. destruct E. discriminate.
      + intros E. exfalso. exact (D (digits x) 45 [] _ ltac:(assumption) ltac:(lia) eq_refl E).
      + intros E. exfalso. exact (D (digits x) 40 (chars "empty)") _ ltac:(assumption) ltac:(lia) eq_refl E).
  Qed.
  Lemma solid_text : forall e v, solid e v -> exists t, render v = (t, Done) /\ plain e t v /\ clean t /\ t <> [] /\ t <> chars "-" /\ t <> chars "(empty)".
  Proof.
    intros e v (H & N & M). destruct (item_renders _ _ H) as (t & R & I & C). exists t. split; [exact R|].
    destruct I as [e|  |e v t P]; [contradiction|exfalso; apply M; now left|]. destruct (plain_words _ _ _ P) as (P1 & P2 & P3). repeat split; try assumption; try apply C.
    - intros E. apply M. rewrite (P2 E), E. right. now left.
    - intros E. apply M. rewrite (P3 E), E. right. right. now left.
  Qed.
  Definition zeeks (h : heading) : Prop := h_sep h = 9 /\ h_set h = 44 /\ h_empty h = chars "(empty)" /\ h_unset h = chars "-".
  Lemma readable_cell : forall h k v, zeeks h -> readable k v -> cell_says A seconds h k (fst (render v)) v /\ fst (render v) <> [].
  Proof.
    intros h k v (Z1 & Z2 & Z3 & Z4) [->|[H|(e & l & -> & -> & F)] ].
    - split; [|discriminate]. change (fst (render DNone)) with (chars "-"). rewrite <- Z4. constructor.
    - destruct (solid_text _ _ H) as (t & -> & P & C & N & T1 & T2). split; [|exact N]. apply cell_plain; [now rewrite Z4|now rewrite Z3|exact P].
    - destruct l as [|v l].
      + split; [|discriminate]. change (fst (render (DList []))) with (chars "(empty)"). rewrite <- Z3. change (DList []) with (nothing (ZList e)). apply cell_empty; [rewrite Z3, Z4; discriminate|discriminate|discriminate].
      + assert (G : forall first, exists ts, Forall2 (plain e) ts (v :: l) /\ Forall (fun t => ~ In 44 t) ts /\ Forall (fun t => t <> [] /\ t <> chars "-" /\ t <> chars "(empty)") ts /\
          elements render first (v :: l) = (match ts with [] => [] | t :: r => (if first then t else 44 :: t) ++ flat_map (fun y => [44] ++ y) r end, Done)).
        { revert F. generalize (v :: l). clear v l. intros l F. induction F as [|v l V F IH]; intros first; [exists []; repeat split; constructor|].
          destruct (solid_text _ _ V) as (t & R & P & (C1 & C2 & C3) & N & T1 & T2). destruct (IH false) as (ts & G1 & G2 & G3 & G4). exists (t :: ts).
          repeat split; try (constructor; [|assumption]; repeat split; assumption); try (constructor; assumption).
          cbn [elements]. rewrite R. change ((fix go (first0 : bool) (l : list data) {struct l} : text * outcome := _) false l) with (elements render false l). rewrite G4. destruct ts; reflexivity. }
        destruct (G true) as (ts & G1 & G2 & G3 & G4). change (render (DList (v :: l))) with (elements render true (v :: l)). rewrite G4. cbn [fst].
        destruct ts as [|t ts]; [inversion G1|]. change (t ++ flat_map (fun y => [44] ++ y) ts) with (join_text [44] (t :: ts)).
        assert (N : join_text [44] (t :: ts) <> [] /\ join_text [44] (t :: ts) <> chars "-" /\ join_text [44] (t :: ts) <> chars "(empty)").
        { destruct (Forall_inv G3) as (N1 & N2 & N3). destruct ts as [|u ts]; cbn [join_text flat_map]; [rewrite app_nil_r; auto|].
          assert (I : In 44 (t ++ ([44] ++ u) ++ flat_map (fun y => [44] ++ y) ts)) by (apply in_or_app; right; now left).
          repeat split; intros E; rewrite E in I; cbn in I; intuition discriminate. }
        destruct N as (N1 & N2 & N3). split; [|exact N1]. rewrite <- Z2 in G2, N2, N3 |- *. apply cell_list; [now rewrite Z4|now rewrite Z3|discriminate|exact G1|exact G2].
  Qed.
  Lemma rows_ahead : forall h rs, zeeks h -> h_columns h <> [] -> Forall (fun vs => Forall2 readable (kinds h) vs /\ forall v, hd_error vs = Some v -> ~ hash v) rs ->
    ahead A seconds (Some h) (map rowt rs) (map (fun vs => (layout h, vs)) rs).
  Proof.
    intros h rs Z N H. induction H as [|vs rs (P & K) F IH]; cbn [map]; [constructor|].
    assert (P' : Forall2 printable (kinds h) vs) by (clear -P; induction P; constructor; [now apply readable_printable|assumption]).
    assert (NV : vs <> []) by (intros ->; inversion P as [E|]; apply N; unfold kinds in E; destruct (h_columns h); [reflexivity|discriminate]).
    destruct (row_line _ _ P' NV K) as (ts & E & T1 & T3 & T4 & T5 & T6 & T7). rewrite E. cbn [fst]. apply ahead_row with (ts := ts); [| |exact IH].
    - destruct Z as (Z1 & _). unfold cut. rewrite Z1. repeat split; try assumption.
      rewrite T1. clear -P NV seconds. assert (Q : Forall (fun t => t <> []) (map (fun v => fst (render v)) vs)).
      { apply Forall_map. revert P. generalize (kinds h). intros ks P. clear NV. induction P as [|k v ks vs R F IH]; constructor; [|exact IH].
        eapply (readable_cell {| h_sep := 9; h_hi := 0; h_lo := 0; h_set := 44; h_empty := chars "(empty)"; h_unset := chars "-"; h_path := []; h_open := []; h_columns := [] |}); [repeat split|exact R]. }
      destruct vs as [|v vs]; [contradiction|]. intros E. rewrite Forall_forall in Q. apply (Q (last (map (fun v => fst (render v)) (v :: vs)) [])); [|exact E].
      assert (LI : forall {B} (d : B) l, l <> [] -> In (last l d) l) by (intros B d l; induction l as [|x [|y l] IL]; intros NL; [contradiction|now left|right; apply IL; discriminate]). apply LI. discriminate.
    - rewrite T1. clear -P Z. revert P. generalize (kinds h). intros ks P. induction P as [|k v ks vs R F IH]; cbn [map]; constructor; [now apply readable_cell|exact IH].
  Qed.
  (** The lines of a file that are not for the header. *)
  Definition body (out : text) : list text := filter (fun l => negb (hd 0 l =? 35)) (removelast (pieces 10 out)).
  Lemma body_rows : forall opened x w, (forall o, opened = Some o -> ~ In 10 o) -> slice_ok x -> write A real6 seconds6 opened x fresh = (w, Done) ->
    body (c_out (o_child w)) = map rowt (s_rows x).
  Proof.
    intros opened x w O X E.
    assert (NX : map snd (s_columns x) <> []) by (destruct X as (N & _); destruct (s_columns x); [contradiction|discriminate]).
    assert (E' : w = {| o_last := Some (s_name x, s_columns x); o_child := {| c_buf := []; c_out := lines_text (header opened x) ++ lines_text (map rowt (s_rows x)) |} |}).
    { unfold write in E. cbn [o_last fresh o_child] in E. change (c_buf {| c_buf := []; c_out := [] |}) with (@nil N) in E.
      change (c_out {| c_buf := []; c_out := [] |} ++ lines_text (header opened x)) with (lines_text (header opened x)) in E.
      rewrite (rows_lines (map snd (s_columns x))) in E; [|apply X|exact NX]. apply (f_equal fst) in E. symmetry. exact E. }
    subst w. cbn [o_child c_out]. unfold body. clear E.
    destruct (row_sections x X []) as (R' & _ & R2 & _).
    replace (lines_text (header opened x) ++ lines_text (map rowt (s_rows x))) with (lines_text (header opened x ++ map rowt (s_rows x))) by (unfold lines_text; now rewrite flat_map_app).
    rewrite pieces_lines by (apply Forall_app; split; [now apply header_clean|exact R2]). rewrite removelast_snoc, filter_app.
    replace (filter (fun l => negb (hd 0 l =? 35)) (header opened x)) with (@nil text) by (unfold header; destruct opened; reflexivity). cbn [app].
    destruct X as (N & _ & _ & P). clear -P N seconds. induction P as [|vs rs (P & K) F IH]; [reflexivity|]. cbn [map filter].
    assert (NV : vs <> []) by (intros ->; inversion P as [E|]; apply N; destruct (s_columns x); [reflexivity|discriminate]).
    destruct (row_line _ _ P NV K) as (ts & E & _ & _ & _ & _ & T6 & _). rewrite E. cbn [fst]. destruct (N.eqb_spec (hd 0 (join_text [9] ts)) 35); [contradiction|]. cbn [negb]. now rewrite IH.
  Qed.
End Values.

(** ** The header of an export is not one that the import takes *)

Lemma export_header : forall opened x rest g r, parse_header (header opened x ++ rest) <> HLog g r.
Proof.
  intros opened x rest g r H. unfold header in H. cbn [app] in H. unfold parse_header in H.
  change (starts (chars "#separator ") (chars "#separator " ++ [9])) with true in H. change (separators (skipn 11 (chars "#separator " ++ [9]))) with (Some (@nil N)) in H. cbn iota in H.
  destruct (values [] prefixes _) as [ [vs rs]|]; [|discriminate]. do 8 (destruct vs as [|? vs]; try discriminate).
Qed.
