(** Lemmas on the export as comma-separated values, for C68. *)
From Coq Require Import List ZArith NArith Bool Arith Lia String Ascii.
From Coq Require Import Init.Datatypes.
From Verif Require Import AddressModel DataModel DataProofs EscapeModel LiteralModel LiteralProofs CsvWriterModel.
Import ListNotations.
Open Scope N_scope.
Local Notation length := List.length.
Local Notation concat := List.concat.

(** * Specification: files of comma-separated values *)

(** A field is bare or quoted. *)
Inductive fld := Bare (t : text) | Quoted (t : text).
(** Where a reader of such files is: at the start of a field, in a bare one, inside of the quotes,
    or behind a quote that closes the field unless another one follows. *)
Inductive mode := Start | InBare (t : text) | InQuote (t : text) | Closed (t : text).
(** The lines of a file, as fields (RFC 4180, with line feeds): commas separate fields, lines end
    with a line feed, and between quotes a doubled quote stands for one. A quote inside of a bare
    field and text behind a quoted one are errors. *)
Fixpoint decode (m : mode) (row : list fld) (s : text) : option (list (list fld)) :=
  match s with
  | [] => match m, row with Start, [] => Some [] | _, _ => None end
  | c :: r =>
      let next f := decode Start (row ++ [f]) r in
      let emit f := option_map (cons (row ++ [f])) (decode Start [] r) in
      match m with
      | Start => if c =? 34 then decode (InQuote []) row r else if c =? 44 then next (Bare []) else if c =? 10 then emit (Bare []) else decode (InBare [c]) row r
      | InBare t => if c =? 34 then None else if c =? 44 then next (Bare t) else if c =? 10 then emit (Bare t) else decode (InBare (t ++ [c])) row r
      | InQuote t => if c =? 34 then decode (Closed t) row r else decode (InQuote (t ++ [c])) row r
      | Closed t => if c =? 34 then decode (InQuote (t ++ [34])) row r else if c =? 44 then next (Quoted t) else if c =? 10 then emit (Quoted t) else None
      end
  end.
Definition lines_of (file : text) : option (list (list fld)) := decode Start [] file.

(** Text that may be a bare field: no quotes, commas and line feeds. *)
Definition clean (t : text) : Prop := Forall (fun c => c <> 34 /\ c <> 44 /\ c <> 10) t.

(** * The reader of such files *)

Definition doubled (t : text) : text := flat_map (fun c => if c =? 34 then [34; 34] else [c]) t.
Definition fld_text (f : fld) : text := match f with Bare t => t | Quoted t => 34 :: doubled t ++ [34] end.
Definition fld_ok (f : fld) : Prop := match f with Bare t => clean t | Quoted _ => True end.

Lemma bare_on : forall t acc row s, clean t -> decode (InBare acc) row (t ++ s) = decode (InBare (acc ++ t)) row s.
Proof.
  induction t as [|c t IH]; intros acc row s H; [now rewrite app_nil_r|]. inversion H as [|? ? (H1 & H2 & H3) H4]; subst. cbn [app decode].
  apply N.eqb_neq in H1, H2, H3. rewrite H1, H2, H3, IH by assumption. now rewrite <- app_assoc.
Qed.
Lemma quote_on : forall t acc row s, decode (InQuote acc) row (doubled t ++ s) = decode (InQuote (acc ++ t)) row s.
Proof.
  induction t as [|c t IH]; intros acc row s; [now rewrite app_nil_r|]. unfold doubled. cbn [flat_map]. fold (doubled t). destruct (c =? 34) eqn:E.
  - apply N.eqb_eq in E. subst c. cbn [app decode]. cbn [N.eqb Pos.eqb]. rewrite IH, <- app_assoc. reflexivity.
  - cbn [app decode]. rewrite E, IH, <- app_assoc. reflexivity.
Qed.
Lemma field_next : forall f row s, fld_ok f -> decode Start row (fld_text f ++ 44 :: s) = decode Start (row ++ [f]) s.
Proof.
  intros [t|t] row s H; cbn [fld_text fld_ok] in *.
  - destruct t as [|c t]; [reflexivity|]. inversion H as [|? ? (H1 & H2 & H3) H4]; subst. cbn [app decode].
    apply N.eqb_neq in H1, H2, H3. rewrite H1, H2, H3, bare_on by assumption. reflexivity.
  - cbn [app decode]. change (34 =? 34) with true. cbv iota. rewrite <- app_assoc, quote_on. reflexivity.
Qed.
Lemma field_last : forall f row s, fld_ok f -> decode Start row (fld_text f ++ 10 :: s) = option_map (cons (row ++ [f])) (decode Start [] s).
Proof.
  intros [t|t] row s H; cbn [fld_text fld_ok] in *.
  - destruct t as [|c t]; [reflexivity|]. inversion H as [|? ? (H1 & H2 & H3) H4]; subst. cbn [app decode].
    apply N.eqb_neq in H1, H2, H3. rewrite H1, H2, H3, bare_on by assumption. reflexivity.
  - cbn [app decode]. change (34 =? 34) with true. cbv iota. rewrite <- app_assoc, quote_on. reflexivity.
Qed.
Definition line_text (fs : list fld) : text := match fs with [] => [] | f :: r => fld_text f ++ flat_map (fun x => 44 :: fld_text x) r ++ [10] end.
Lemma line_reads : forall fs row s, fs <> [] -> Forall fld_ok fs -> decode Start row (line_text fs ++ s) = option_map (cons (row ++ fs)) (decode Start [] s).
Proof.
  intros [|f fs] row s NE H; [congruence|]. clear NE. cbn [line_text]. revert f row H. induction fs as [|g fs IH]; intros f row H; inversion H as [|? ? H1 H2]; subst.
  - cbn [flat_map app]. rewrite <- app_assoc. now apply field_last.
  - cbn [flat_map app]. rewrite <- !app_assoc. cbn [app]. rewrite field_next by assumption. rewrite <- !app_assoc. specialize (IH g (row ++ [f]) H2). rewrite <- !app_assoc in IH. rewrite IH. reflexivity.
Qed.
Lemma lines_read : forall ls, Forall (fun fs => fs <> [] /\ Forall fld_ok fs) ls -> lines_of (flat_map line_text ls) = Some ls.
Proof.
  unfold lines_of. induction ls as [|fs ls IH]; intros H; [reflexivity|]. inversion H as [|? ? [H1 H2] H3]; subst. cbn [flat_map]. rewrite line_reads, IH by assumption. reflexivity.
Qed.

(** * The writer *)

Lemma escape_doubled : forall s, ~ In 124 s -> double_escape s [c_quote; chr "|"] = doubled s.
Proof.
  intros s H. unfold double_escape, escape, doubled. induction s as [|c s IH]; [reflexivity|]. cbn [flat_map]. rewrite IH by (intros X; apply H; now right). f_equal.
  unfold double_escaper, mem. cbn [existsb]. change (chr "|") with 124. unfold c_quote. destruct (c =? 34) eqn:E; cbn [orb].
  - apply N.eqb_eq in E. now subst.
  - destruct (c =? 124) eqn:E2; [|reflexivity]. apply N.eqb_eq in E2. subst. exfalso. apply H. now left.
Qed.

(** * Values *)

Section Values.
  Variable A : arith.
  Variable real6 : N -> text.
  (** The text of a value that is written without quotes. *)
  Definition bare_text (v : data) (t : text) : Prop :=
    match v with
    | DBool _ | DInt _ | DCount _ | DDuration _ | DTime _ | DPattern _ | DAddress _ | DSubnet _ | DEnum _ => show A v = Some t
    | DReal p => real6 p = t
    | _ => False
    end.
  (** [shown v f]: the field [f] stands for [v]. Null is an empty field; a string is quoted; other
      values are as in queries; a list has bars between its elements, and the empty list is a
      quoted empty field. *)
  Inductive shown : data -> fld -> Prop :=
  | shown_null : shown DNone (Bare [])
  | shown_string : forall s, ~ In 124 s -> shown (DString s) (Quoted s)
  | shown_bare : forall v t, bare_text v t -> clean t -> shown v (Bare t)
  | shown_empty : shown (DList []) (Quoted [])
  | shown_list : forall v t vs ts, bare_text v t -> clean t -> Forall2 (fun v t => bare_text v t /\ clean t) vs ts ->
      shown (DList (v :: vs)) (Bare (t ++ flat_map (fun x => chars " | " ++ x) ts)).

  Lemma render_bare : forall v t, bare_text v t -> render A real6 v = (t, Done).
  Proof. intros v t H. destruct v; cbn [bare_text] in H; cbn [render]; try contradiction; try (rewrite H; reflexivity). Qed.
  Lemma render_elements : forall vs ts, Forall2 (fun v t => bare_text v t /\ clean t) vs ts -> elements (render A real6) false vs = (flat_map (fun x => chars " | " ++ x) ts, Done).
  Proof.
    intros vs ts H. induction H as [|v t vs ts [H1 H2] H IH]; [reflexivity|]. cbn [elements flat_map]. fold (elements (render A real6)).
    rewrite (render_bare _ _ H1), IH. reflexivity.
  Qed.
  Lemma clean_app : forall a b, clean a -> clean b -> clean (a ++ b).
  Proof. intros a b H1 H2. apply Forall_app. now split. Qed.
  Lemma render_shown : forall v f, shown v f -> render A real6 v = (fld_text f, Done) /\ fld_ok f.
  Proof.
    intros v f H. destruct H as [|s H|v t H C| |v t vs ts H C Hs]; cbn [fld_text fld_ok].
    - split; [reflexivity|constructor].
    - cbn [render]. now rewrite escape_doubled.
    - split; [now apply render_bare|exact C].
    - split; [reflexivity|exact I].
    - split.
      + cbn [render]. cbn [elements]. fold (elements (render A real6)). rewrite (render_bare _ _ H), (render_elements _ _ Hs). reflexivity.
      + apply clean_app; [exact C|]. clear H C. induction Hs as [|w u vs ts [H1 H2] Hs IH]; [constructor|]. cbn [flat_map].
        apply clean_app; [|exact IH]. apply clean_app; [|exact H2]. repeat constructor; discriminate.
  Qed.
  Lemma cells_shown : forall vs fs, Forall2 shown vs fs -> cells A real6 vs = (flat_map (fun x => 44 :: fld_text x) fs, Done).
  Proof.
    intros vs fs H. induction H as [|v f vs fs H1 H IH]; [reflexivity|]. cbn [cells flat_map]. destruct (render_shown _ _ H1) as [R _]. rewrite R, IH. reflexivity.
  Qed.

  (** * Slices *)

  (** What the file of a sequence of slices has to say: for each slice, a line with the keys if the
      type of events changes, and a line for each event. *)
  Fixpoint expected (last : text) (xs : list slice) (ls : list (list fld)) : Prop :=
    match xs with
    | [] => ls = []
    | x :: r => exists fs rest, ls = (if bytes_eqb last (s_name x) then [] else [map Bare (chars "type" :: s_keys x)]) ++ map (cons (Bare (s_name x))) fs ++ rest /\
        Forall2 (Forall2 shown) (s_rows x) fs /\ expected (s_name x) r rest
    end.
  Definition names_clean (x : slice) : Prop := clean (s_name x) /\ Forall clean (s_keys x).

  Lemma header_line : forall keys, header keys = line_text (map Bare (chars "type" :: keys)).
  Proof.
    intros keys. unfold header. cbn [map line_text fld_text]. f_equal. f_equal. induction keys as [|k keys IH]; [reflexivity|]. cbn [map flat_map fld_text]. now rewrite IH.
  Qed.
  Lemma rows_shown : forall name rws fs, Forall2 (Forall2 shown) rws fs -> forall w, w_buf w = [] ->
    rows A real6 name rws w = ({| w_last := w_last w; w_buf := []; w_out := w_out w ++ flat_map line_text (map (cons (Bare name)) fs) |}, Done).
  Proof.
    intros name rws fs H. induction H as [|row f rws fs H1 H IH]; intros w B; cbn [rows map flat_map].
    - rewrite app_nil_r. destruct w. cbn in *. now subst.
    - rewrite (cells_shown _ _ H1), B. rewrite IH by reflexivity. cbn [w_last w_out line_text fld_text app]. rewrite <- !app_assoc. reflexivity.
  Qed.
  Lemma write_shown : forall x fs w, Forall2 (Forall2 shown) (s_rows x) fs -> w_buf w = [] ->
    write A real6 x w = ({| w_last := s_name x; w_buf := []; w_out := w_out w ++ flat_map line_text ((if bytes_eqb (w_last w) (s_name x) then [] else [map Bare (chars "type" :: s_keys x)]) ++ map (cons (Bare (s_name x))) fs) |}, Done).
  Proof.
    intros x fs w H B. unfold write. destruct (bytes_eqb (w_last w) (s_name x)) eqn:E.
    - rewrite (rows_shown _ _ _ H) by assumption. apply bytes_eqb_eq' in E. rewrite E. reflexivity.
    - rewrite (rows_shown _ _ _ H) by reflexivity. cbn [w_last w_out]. rewrite B, header_line, flat_map_app. cbn [flat_map app]. rewrite app_nil_r, <- !app_assoc. reflexivity.
  Qed.

  (** The first [n] events of a sequence of slices. *)
  Fixpoint cut (n : nat) (xs : list slice) : list slice :=
    match n, xs with
    | O, _ | _, [] => []
    | _, x :: r => truncated n x :: cut (n - length (s_rows x)) r
    end.
  Definition within (max : option nat) (xs : list slice) : list slice := match max with Some n => cut n xs | None => xs end.

  Lemma cut_0 : forall xs, cut 0 xs = [].
  Proof. now destruct xs. Qed.
  Lemma expected_ok : forall xs last ls, Forall names_clean xs -> expected last xs ls -> Forall (fun fs => fs <> [] /\ Forall fld_ok fs) ls.
  Proof.
    induction xs as [|x xs IH]; intros last ls C H; cbn [expected] in H; [subst; constructor|]. inversion C as [|? ? [C1 C2] C3]; subst.
    destruct H as (fs & rest & -> & H1 & H2). apply Forall_app. split.
    - destruct (bytes_eqb last (s_name x)); constructor; [|constructor]. split; [discriminate|]. cbn [map]. constructor; [repeat constructor; discriminate|]. apply Forall_map. exact C2.
    - apply Forall_app. split; [|eauto]. apply Forall_map. apply Forall_forall. intros f F. split; [discriminate|]. constructor; [exact C1|].
      clear -H1 F. induction H1 as [|row g rws fs G H1 IH]; [contradiction|]. destruct F as [->|F]; [|auto]. clear IH. induction G as [|v y vs ys Y G IH]; constructor; [|exact IH]. exact (proj2 (render_shown _ _ Y)).
  Qed.
  Lemma run_dead : forall ms k, k_alive k = false -> run A real6 ms k = k.
  Proof. induction ms as [|m ms IH]; intros k H; [reflexivity|]. unfold run in *. cbn [fold_left]. unfold handle at 2. rewrite H. cbn [negb]. now apply IH. Qed.
  Lemma run_shown : forall xs k ls, k_alive k = true -> k_error k = Done -> w_buf (k_writer k) = [] ->
    expected (w_last (k_writer k)) (within (option_map (fun m => m - k_processed k)%nat (k_max k)) xs) ls ->
    let k' := run A real6 (map Slice xs) k in
    file k' = w_out (k_writer k) ++ flat_map line_text ls /\ k_error k' = Done /\
    k_processed k' = (k_processed k + length (concat (map s_rows (within (option_map (fun m => m - k_processed k)%nat (k_max k)) xs))))%nat.
  Proof.
    induction xs as [|x xs IH]; intros k ls L E B H.
    - cbn [map run fold_left]. assert (W : within (option_map (fun m => m - k_processed k)%nat (k_max k)) [] = []) by (destruct (k_max k) as [m|]; [cbn; now destruct (m - _)%nat|reflexivity]).
      rewrite W in *. cbn [expected] in H. subst ls. cbn. rewrite app_nil_r. unfold file. split; [reflexivity|]. split; [exact E|lia].
    - cbn [map]. unfold run. cbn [fold_left]. unfold handle at 2 4 6. rewrite L. cbn [negb].
      destruct (k_max k) as [max|] eqn:M; cbn [option_map within] in *.
      + destruct (max <=? k_processed k)%nat eqn:F.
        * apply Nat.leb_le in F. replace (max - k_processed k)%nat with 0%nat in * by lia. cbn [cut expected] in H. subst ls.
          match goal with |- context [fold_left _ _ ?K] => pose proof (run_dead (map Slice xs) K eq_refl) as D; unfold run in D; rewrite D end. cbn. rewrite app_nil_r. unfold file. cbn. repeat split; lia.
        * apply Nat.leb_gt in F. destruct (max - k_processed k)%nat as [|n] eqn:N; [lia|]. cbn [cut expected] in H. destruct H as (fs & rest & -> & H1 & H2).
          rewrite (write_shown _ _ _ H1 B). cbv iota beta.
          set (n' := (k_processed k + length (s_rows (truncated (S n) x)))%nat).
          destruct (max <=? n')%nat eqn:F2; cbn [negb].
          -- match goal with |- context [fold_left _ _ ?K] => pose proof (run_dead (map Slice xs) K eq_refl) as D; unfold run in D; rewrite D end.
             assert (T : (S n - length (s_rows x) = 0)%nat). { apply Nat.leb_le in F2. subst n'. cbn [truncated s_rows] in F2. rewrite firstn_length in F2. lia. }
             cbn [cut]. rewrite T, cut_0 in *. cbn [expected] in H2. subst rest. cbn [map concat]. rewrite !app_nil_r. unfold file. cbn [k_writer w_out k_error k_processed]. split; [reflexivity|]. split; [reflexivity|]. subst n'. reflexivity.
          -- apply Nat.leb_gt in F2. set (k1 := {| k_writer := _; k_processed := n'; k_max := _; k_alive := true; k_error := Done |}).
             assert (T : (max - n' = S n - length (s_rows x))%nat). { subst n'. cbn [truncated s_rows] in *. rewrite firstn_length in *. lia. }
             destruct (IH k1 rest eq_refl eq_refl eq_refl) as (I1 & I2 & I3). { subst k1. cbn [k_max k_processed k_writer w_last option_map within]. rewrite T. exact H2. }
             unfold run in I1, I2, I3. rewrite I1, I2, I3. subst k1. cbn [k_writer w_out k_processed k_max option_map within]. rewrite <- app_assoc, <- flat_map_app, <- app_assoc. split; [reflexivity|]. split; [reflexivity|].
             rewrite T. cbn [cut map concat]. rewrite app_length. subst n'. lia.
      + destruct H as (fs & rest & -> & H1 & H2). rewrite (write_shown _ _ _ H1 B). cbv iota beta. cbn [negb].
        set (n' := (k_processed k + length (s_rows x))%nat). set (k1 := {| k_writer := _; k_processed := n'; k_max := _; k_alive := true; k_error := Done |}).
        destruct (IH k1 rest eq_refl eq_refl eq_refl) as (I1 & I2 & I3). { subst k1. cbn [k_max k_processed k_writer w_last option_map within]. exact H2. }
        unfold run in I1, I2, I3. rewrite I1, I2, I3. subst k1. cbn [k_writer w_out k_processed k_max option_map within]. rewrite <- app_assoc, <- flat_map_app, <- app_assoc. split; [reflexivity|]. split; [reflexivity|].
        cbn [map concat]. rewrite app_length. subst n'. lia.
  Qed.
  Lemma cut_events : forall xs n, concat (map s_rows (cut n xs)) = firstn n (concat (map s_rows xs)).
  Proof.
    induction xs as [|x xs IH]; intros n; [destruct n; reflexivity|]. destruct n as [|n]; [reflexivity|]. cbn [cut map concat]. rewrite IH. cbn [truncated s_rows]. now rewrite firstn_app.
  Qed.
  Lemma cut_clean : forall xs n, Forall names_clean xs -> Forall names_clean (cut n xs).
  Proof. induction xs as [|x xs IH]; intros n H; destruct n; try constructor; inversion H; subst; [assumption|auto]. Qed.
End Values.

(** * Texts that are clean *)

Lemma digits_clean : forall x, clean (digits x).
Proof.
  intros x. unfold digits. destruct (x =? 0); [repeat constructor; discriminate|]. apply Forall_rev. generalize 20%nat as k. intros k. revert x. induction k as [|k IH]; intros x; cbn [digits_rev]; [constructor|].
  destruct (x =? 0); [constructor|]. constructor; [|apply IH]. lia.
Qed.
Lemma clean_cons : forall c t, c <> 34 -> c <> 44 -> c <> 10 -> clean t -> clean (c :: t).
Proof. intros c t H1 H2 H3 H. constructor; auto. Qed.
Lemma zeros_clean : forall k, clean (repeat 48 k).
Proof. induction k; cbn; [constructor|]. apply clean_cons; try discriminate. exact IHk. Qed.
