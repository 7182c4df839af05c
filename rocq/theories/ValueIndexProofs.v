(** Proofs about the value index base class. *)
From Coq Require Import List ZArith NArith Lia Bool ZifyBool ZifyNat ZifyN.
From Verif Require Import WordProofs OperatorModel PropsBitmapOps BitmapOps CoderProofs ValueIndexModel.
Import ListNotations.
Open Scope N_scope.

(** What a row position of an index holds. *)
Inductive cell (V : Type) := Gap | Nil | Val (v : V).
Arguments Gap {V}. Arguments Nil {V}. Arguments Val {V}.

Definition is_val {V} (c : cell V) : bool := match c with Val _ => true | _ => false end.
Definition is_nil {V} (c : cell V) : bool := match c with Nil => true | _ => false end.
Definition value_of {V} (c : cell V) : option V := match c with Val v => Some v | _ => None end.
Definition cell_of {V} (x : option V) : cell V := match x with Some v => Val v | None => Nil end.

(** Appending at a position: earlier positions are refused, skipped ones are gaps. *)
Definition write {V} (col : list (cell V)) (x : option V) (pos : nat) : option (list (cell V)) :=
  if (pos <? length col)%nat then None
  else Some (col ++ repeat Gap (pos - length col) ++ [cell_of x]).

Section Proofs.
  Context {B : Type} (ops : bitmap_ops B) (content : B -> list bool).
  Context (laws : bitmap_laws ops content).
  Context {S V X : Type} (impl : index_impl B S V X).
  (** Invariant of the concrete index: the values at the positions it has seen. *)
  Variable (I : S -> list (option V) -> Prop).

  Notation bit := (bit content).
  Notation len := (len content).
  Notation good := (good content).

  Definition VInv (i : vindex B S) (col : list (cell V)) : Prop :=
    good false (vi_mask i) (map is_val col) /\ good false (vi_none i) (map is_nil col) /\
    Nat.max (len (vi_mask i)) (len (vi_none i)) = length col /\
    exists vals j, I (vi_state i) vals /\ vals ++ repeat None j = map value_of col.

  Lemma VInv_new : forall s, I s [] -> VInv (vi_new ops s) [].
  Proof.
    intros s H. unfold VInv, vi_new. cbn [vi_mask vi_none vi_state map length].
    assert (E : content (b_empty ops) = []) by apply (law_empty _ _ laws).
    repeat split; try (now apply good_full).
    - unfold BitmapOps.len. now rewrite E.
    - exists [], 0%nat. auto.
  Qed.

  Lemma offset_spec : forall i col, VInv i col -> vi_offset ops i = N.of_nat (length col).
  Proof.
    intros i col (_ & _ & M & _). unfold vi_offset. rewrite !(size_len _ _ laws). lia.
  Qed.

  (** Extending a bitmap by zeros up to [pos] and a final one. *)
  Lemma extend_content : forall bm (l : list bool) pos, good false bm l -> (length l <= pos)%nat ->
    content (b_app ops (b_app ops bm false (N.of_nat pos - b_size ops bm)) true 1) =
    l ++ repeat false (pos - length l) ++ [true].
  Proof.
    intros bm l pos G L. rewrite !(law_app _ _ laws), (size_len _ _ laws).
    pose proof (good_len _ _ _ _ G) as GL. destruct G as (k & E). change (N.to_nat 1) with 1%nat. cbn [repeat].
    rewrite app_assoc. f_equal. rewrite <- E, <- app_assoc. f_equal.
    replace (N.to_nat (N.of_nat pos - N.of_nat (len bm))) with (pos - len bm)%nat by lia.
    rewrite <- repeat_app. f_equal. rewrite app_length, repeat_length. unfold BitmapOps.len in *.
    rewrite <- E, app_length, repeat_length in L. lia.
  Qed.

  Definition accepts (v : V) : Prop :=
    forall s vals pos, I s vals -> (length vals <= pos)%nat ->
    exists s', i_append impl s v (N.of_nat pos) = Some s' /\
      I s' (vals ++ repeat None (pos - length vals) ++ [Some v]).

  Lemma good_repeat_false : forall bm l n, good false bm l -> good false bm (l ++ repeat false n).
  Proof. intros. now apply good_ext. Qed.

  (** One append, if the concrete index accepts the value in its current state. *)
  Lemma append_once : forall i col x pos, VInv i col ->
    (forall v vals, x = Some v -> I (vi_state i) vals -> (length vals <= pos)%nat ->
       exists s', i_append impl (vi_state i) v (N.of_nat pos) = Some s' /\ I s' (vals ++ repeat None (pos - length vals) ++ [Some v])) ->
    match write col x pos with
    | None => vi_append ops impl i x (N.of_nat pos) = None
    | Some col' => exists i', vi_append ops impl i x (N.of_nat pos) = Some i' /\ VInv i' col'
    end.
  Proof.
    intros i col x pos J A. pose proof (offset_spec i col J) as OF. pose proof J as (GM & GN & M & vals & j & IV & EV).
    unfold write, vi_append. rewrite OF.
    destruct (Nat.ltb_spec pos (length col)) as [H|H].
    - replace (N.of_nat pos <? N.of_nat (length col)) with true by lia. reflexivity.
    - replace (N.of_nat pos <? N.of_nat (length col)) with false by lia.
      set (gap := (pos - length col)%nat).
      assert (EXT : forall f : cell V -> bool, f Gap = false -> forall c : cell V,
        map f (col ++ repeat Gap gap ++ [c]) = map f col ++ repeat false gap ++ [f c]).
      { intros f F c. rewrite !map_app, map_repeat, F. reflexivity. }
      assert (LN : length (col ++ repeat Gap gap ++ [cell_of x]) = Datatypes.S pos).
      { rewrite !app_length, repeat_length. cbn. lia. }
      assert (VM : map value_of (col ++ repeat Gap gap ++ [cell_of x]) = map value_of col ++ repeat None gap ++ [x]).
      { rewrite !map_app, map_repeat. cbn. now destruct x. }
      destruct x as [v|].
      + assert (LV : (length vals <= pos)%nat).
        { assert (length vals + j = length col)%nat by (rewrite <- (map_length value_of col), <- EV, app_length, repeat_length; lia). lia. }
        destruct (A v vals eq_refl IV LV) as (s' & -> & I').
        eexists. split; [reflexivity|]. unfold VInv. cbn [vi_mask vi_none vi_state].
        pose proof (extend_content (vi_mask i) _ pos GM ltac:(rewrite map_length; lia)) as EM.
        rewrite map_length in EM. fold gap in EM.
        repeat split.
        * apply good_full. rewrite EM. now rewrite EXT.
        * rewrite EXT by reflexivity. cbn [is_nil cell_of]. change [false] with (repeat false 1). rewrite <- repeat_app.
          now apply good_ext.
        * pose proof (good_len _ _ _ _ GN) as GL. rewrite map_length in GL. rewrite LN.
          unfold BitmapOps.len at 1. rewrite EM, !app_length, map_length, repeat_length. cbn [length]. lia.
        * exists (vals ++ repeat None (pos - length vals) ++ [Some v]), 0%nat. split; auto.
          cbn [repeat]. rewrite app_nil_r. rewrite VM, <- EV, <- app_assoc. f_equal.
          rewrite app_assoc. f_equal. rewrite <- repeat_app. f_equal.
          assert (length vals + j = length col)%nat by (rewrite <- (map_length value_of col), <- EV, app_length, repeat_length; lia). lia.
      + eexists. split; [reflexivity|]. unfold VInv. cbn [vi_mask vi_none vi_state].
        pose proof (extend_content (vi_none i) _ pos GN ltac:(rewrite map_length; lia)) as EM.
        rewrite map_length in EM. fold gap in EM.
        repeat split.
        * rewrite EXT by reflexivity. cbn [is_val cell_of]. change [false] with (repeat false 1). rewrite <- repeat_app.
          now apply good_ext.
        * apply good_full. rewrite EM. now rewrite EXT.
        * pose proof (good_len _ _ _ _ GM) as GL. rewrite map_length in GL. rewrite LN.
          unfold BitmapOps.len at 2. rewrite EM, !app_length, map_length, repeat_length. cbn [length]. lia.
        * exists vals, (j + gap + 1)%nat. split; auto. rewrite VM, <- EV, <- app_assoc. f_equal.
          rewrite !repeat_app. now rewrite <- app_assoc.
  Qed.

  Lemma append_spec : forall i col x pos, VInv i col ->
    (forall v, x = Some v -> accepts v) ->
    match write col x pos with
    | None => vi_append ops impl i x (N.of_nat pos) = None
    | Some col' => exists i', vi_append ops impl i x (N.of_nat pos) = Some i' /\ VInv i' col'
    end.
  Proof. intros i col x pos J A. apply append_once; auto. intros v vals E IV L. now apply A. Qed.

  Lemma mask_bit : forall i col p, VInv i col -> bit (vi_mask i) p = is_val (nth p col Gap).
  Proof.
    intros i col p (GM & _). rewrite (good_bit_false _ _ _ p GM). now rewrite <- (map_nth is_val).
  Qed.
  Lemma none_bit : forall i col p, VInv i col -> bit (vi_none i) p = is_nil (nth p col Gap).
  Proof.
    intros i col p (_ & GN & _). rewrite (good_bit_false _ _ _ p GN). now rewrite <- (map_nth is_nil).
  Qed.

  (** * Lookups of nil *)

  Lemma lookup_nil_eq : forall i col, VInv i col -> exists r,
    vi_lookup ops impl i op_eq None = Some r /\ content r = map is_nil col.
  Proof.
    intros i col J. pose proof J as (GM & GN & M & _). cbn [vi_lookup vi_lookup_nil relop_eqb negb].
    eexists. split; [reflexivity|]. rewrite !(size_len _ _ laws).
    pose proof (good_len _ _ _ _ GM) as LM. pose proof (good_len _ _ _ _ GN) as LN. rewrite map_length in LM, LN.
    destruct (N.ltb_spec (N.of_nat (len (vi_none i))) (N.of_nat (len (vi_mask i)))) as [H|H].
    - apply content_ext; [rewrite (len_app _ _ laws), map_length; lia|].
      intros p Hp. rewrite (bit_app _ _ laws), andb_false_r. rewrite <- (good_bit_false _ _ _ p GN).
      destruct (Nat.ltb_spec p (len (vi_none i))) as [Q|Q]; auto.
      unfold BitmapOps.bit, BitmapOps.len in *. now rewrite nth_overflow.
    - apply content_ext; [rewrite map_length; lia|]. intros p Hp. now apply good_bit_false.
  Qed.

  (** [!= nil] returns every position that is not nil, including gaps. *)
  Lemma lookup_nil_ne : forall i col, VInv i col -> exists r,
    vi_lookup ops impl i op_ne None = Some r /\ content r = map (fun c => negb (is_nil c)) col.
  Proof.
    intros i col J. pose proof J as (GM & GN & M & _). cbn [vi_lookup vi_lookup_nil relop_eqb negb].
    eexists. split; [reflexivity|]. rewrite !(size_len _ _ laws), (len_not _ _ laws).
    pose proof (good_len _ _ _ _ GM) as LM. pose proof (good_len _ _ _ _ GN) as LN. rewrite map_length in LM, LN.
    assert (MM : forall p, (p < length col)%nat -> nth p (map (fun c => negb (is_nil c)) col) false = negb (bit (vi_none i) p)).
    { intros p Hp. rewrite (none_bit i col p J). now rewrite (nth_map_default _ _ _ _ Gap). }
    assert (OV : forall p, (len (vi_none i) <= p)%nat -> bit (vi_none i) p = false).
    { intros p Q. unfold BitmapOps.bit, BitmapOps.len in *. now rewrite nth_overflow. }
    destruct (N.ltb_spec (N.of_nat (len (vi_none i))) (N.of_nat (len (vi_mask i)))) as [H|H].
    - apply content_ext; [rewrite (len_app _ _ laws), (len_not _ _ laws), map_length; lia|].
      intros p Hp. rewrite map_length in Hp. rewrite MM by auto.
      rewrite (bit_app _ _ laws), (bit_not _ _ laws), (len_not _ _ laws).
      destruct (Nat.ltb_spec p (len (vi_none i))) as [Q|Q]; auto.
      rewrite OV by auto. lia.
    - apply content_ext; [rewrite (len_not _ _ laws), map_length; lia|].
      intros p Hp. rewrite map_length in Hp. rewrite MM by auto. rewrite (bit_not _ _ laws). lia.
  Qed.

  (** * Other lookups *)

  (** The result of a lookup for one cell, given the truth of the predicate on values. *)
  Definition cell_result (op : relop) (f : V -> bool) (c : cell V) : bool :=
    match c with Val v => f v | Nil => relop_eqb op op_ne | Gap => false end.

  Lemma finish_spec : forall i col op r (f : V -> bool), VInv i col -> (len r <= length col)%nat ->
    (forall p v, nth_error col p = Some (Val v) -> bit r p = f v) ->
    content (vi_finish ops i op r) = map (cell_result op f) col.
  Proof.
    intros i col op r f J L F. pose proof J as (GM & GN & M & _).
    pose proof (good_len _ _ _ _ GM) as LM. pose proof (good_len _ _ _ _ GN) as LN. rewrite map_length in LM, LN.
    unfold vi_finish. rewrite (offset_spec i col J), !(size_len _ _ laws).
    set (r2 := if relop_eqb op op_ne then b_or ops (b_and ops r (vi_mask i)) (vi_none i) else b_and ops r (vi_mask i)).
    assert (L2 : (len r2 <= length col)%nat /\ (relop_eqb op op_ne = true -> len r2 = length col)).
    { subst r2. destruct (relop_eqb op op_ne); rewrite ?(len_or _ _ laws), (len_and _ _ laws); split; auto; try lia; discriminate. }
    assert (B2 : forall p, (p < length col)%nat -> bit r2 p = nth p (map (cell_result op f) col) false).
    { intros p Hp. rewrite (nth_map_default _ _ _ _ Gap) by auto.
      assert (BB : bit r2 p = (bit r p && is_val (nth p col Gap)) || (relop_eqb op op_ne && is_nil (nth p col Gap))).
      { subst r2. rewrite <- (mask_bit i col p J), <- (none_bit i col p J).
        destruct (relop_eqb op op_ne); rewrite ?(bit_or _ _ laws), (bit_and _ _ laws); cbn [andb]; auto.
        now rewrite orb_false_r. }
      rewrite BB. destruct (nth p col Gap) as [| |v] eqn:E; cbn [is_val is_nil cell_result].
      - now rewrite !andb_false_r.
      - now rewrite andb_false_r, andb_true_r.
      - rewrite (F p v). 2:{ rewrite (nth_error_nth' _ Gap) by auto. now f_equal. }
        now rewrite andb_true_r, andb_false_r, orb_false_r. }
    destruct L2 as [L2 L2'].
    destruct (N.ltb_spec (N.of_nat (len r2)) (N.of_nat (length col))) as [H|H].
    - destruct (relop_eqb op op_ne) eqn:NE; [specialize (L2' eq_refl); lia|].
      apply content_ext; [rewrite (len_app _ _ laws), map_length; lia|].
      intros p Hp. rewrite map_length in Hp. rewrite <- B2 by auto. rewrite (bit_app _ _ laws), andb_false_r.
      destruct (Nat.ltb_spec p (len r2)) as [Q|Q]; auto.
      unfold BitmapOps.bit, BitmapOps.len in *. now rewrite nth_overflow.
    - apply content_ext; [rewrite map_length; lia|]. intros p Hp. rewrite map_length in Hp. now apply B2.
  Qed.

  (** The concrete index evaluates [op x] to [f] on the values. *)
  Definition answers (op : relop) (x : X) (f : V -> bool) : Prop :=
    forall s vals off, I s vals -> (length vals <= off)%nat ->
    exists r, i_lookup impl s (N.of_nat off) op x = Some r /\ (len r <= off)%nat /\
      forall p v, nth_error vals p = Some (Some v) -> bit r p = f v.

  Lemma vals_nth : forall vals j (col : list (cell V)) p v, vals ++ repeat None j = map value_of col ->
    nth_error col p = Some (Val v) -> nth_error vals p = Some (Some v).
  Proof.
    intros vals j col p v E H. assert (Q : nth_error (map value_of col) p = Some (Some v)) by now rewrite nth_error_map, H.
    rewrite <- E in Q. destruct (Nat.lt_ge_cases p (length vals)) as [L|L].
    - now rewrite nth_error_app1 in Q.
    - rewrite nth_error_app2 in Q by auto. apply nth_error_repeat_eq in Q. discriminate.
  Qed.

  Lemma vals_length : forall vals j (col : list (cell V)), vals ++ repeat None j = map value_of col ->
    (length vals <= length col)%nat.
  Proof. intros vals j col E. rewrite <- (map_length value_of col), <- E, app_length. lia. Qed.

  Lemma lookup_spec : forall i col op x f, VInv i col -> answers op x f ->
    exists r, vi_lookup ops impl i op (Some x) = Some r /\ content r = map (cell_result op f) col.
  Proof.
    intros i col op x f J A. pose proof J as (_ & _ & _ & vals & j & IV & EV).
    destruct (A _ _ (length col) IV (vals_length _ _ _ EV)) as (r & E & L & F). cbn [vi_lookup].
    rewrite (offset_spec i col J), E. eexists. split; [reflexivity|].
    apply finish_spec; auto.
    intros p v H. apply F. eapply vals_nth; eauto.
  Qed.

  (** * Lookups of lists *)

  (** A list element matches a cell. *)
  Definition elem_matches (f : X -> V -> bool) (x : option X) (c : cell V) : bool :=
    match x, c with
    | Some x, Val v => f x v
    | None, Nil => true
    | _, _ => false
    end.

  Lemma eq_lookup_elem : forall i col x f, VInv i col -> (forall y, x = Some y -> answers op_eq y (f y)) ->
    exists r, vi_lookup ops impl i op_eq x = Some r /\ content r = map (elem_matches f x) col.
  Proof.
    intros i col [x|] f J A.
    - destruct (lookup_spec i col op_eq x (f x) J (A x eq_refl)) as (r & E & C). exists r. split; auto.
    - destruct (lookup_nil_eq i col J) as (r & E & C). exists r. split; auto.
  Qed.

  Lemma all_map : forall b r (g : cell V -> bool) col, content r = map g col ->
    b_all ops b r = true -> forall c, In c col -> g c = b.
  Proof.
    intros b r g col C H c Hc. rewrite (law_all _ _ laws), C in H.
    destruct (map g col) as [|y l] eqn:E; [discriminate|]. rewrite <- E in H.
    rewrite forallb_forall in H. specialize (H (g c) (in_map g _ _ Hc)). symmetry. now apply eqb_prop.
  Qed.

  Lemma container_in_spec : forall i col f xs result g, VInv i col ->
    (forall y, In (Some y) xs -> answers op_eq y (f y)) ->
    content result = map g col ->
    exists r, container_in ops impl i xs result = Some r /\
      content r = map (fun c => g c || existsb (fun x => elem_matches f x c) xs) col.
  Proof.
    intros i col f. induction xs as [|x xs IH]; intros result g J A C; cbn [container_in].
    - exists result. split; auto. rewrite C. apply map_ext. intros c. cbn. now rewrite orb_false_r.
    - destruct (eq_lookup_elem i col x f J) as (r & -> & Cr); [intros y ->; apply A; now left|].
      assert (C2 : content (b_or ops result r) = map (fun c => g c || elem_matches f x c) col).
      { rewrite (law_or _ _ laws), C, Cr. apply pointwise_map. }
      destruct (b_all ops true (b_or ops result r)) eqn:ALL.
      + eexists. split; [reflexivity|]. rewrite C2. apply map_ext_in. intros c Hc.
        pose proof (all_map _ _ _ _ C2 ALL c Hc) as Q. cbn [existsb]. rewrite orb_assoc, Q. reflexivity.
      + destruct (IH (b_or ops result r) _ J ltac:(intros; apply A; now right) C2) as (q & E & Cq).
        exists q. split; auto. rewrite Cq. apply map_ext. intros c. cbn [existsb]. now rewrite orb_assoc.
  Qed.

  Lemma container_not_in_spec : forall i col f xs result g, VInv i col ->
    (forall y, In (Some y) xs -> answers op_eq y (f y)) ->
    content result = map g col ->
    exists r, container_not_in ops impl i xs result = Some r /\
      content r = map (fun c => g c && negb (existsb (fun x => elem_matches f x c) xs)) col.
  Proof.
    intros i col f. induction xs as [|x xs IH]; intros result g J A C; cbn [container_not_in].
    - exists result. split; auto. rewrite C. apply map_ext. intros c. cbn. now rewrite andb_true_r.
    - destruct (eq_lookup_elem i col x f J) as (r & -> & Cr); [intros y ->; apply A; now left|].
      assert (C2 : content (b_diff ops result r) = map (fun c => g c && negb (elem_matches f x c)) col).
      { rewrite (law_diff _ _ laws), C, Cr. apply (pointwise_map (fun p q => p && negb q)). }
      destruct (b_all ops false (b_diff ops result r)) eqn:ALL.
      + eexists. split; [reflexivity|]. rewrite C2. apply map_ext_in. intros c Hc.
        pose proof (all_map _ _ _ _ C2 ALL c Hc) as Q. cbn [existsb]. rewrite negb_orb, andb_assoc, Q. reflexivity.
      + destruct (IH (b_diff ops result r) _ J ltac:(intros; apply A; now right) C2) as (q & E & Cq).
        exists q. split; auto. rewrite Cq. apply map_ext. intros c. cbn [existsb].
        now rewrite negb_orb, andb_assoc.
  Qed.

  Lemma lookup_list_spec : forall i col f xs, VInv i col ->
    (forall y, In (Some y) xs -> answers op_eq y (f y)) ->
    exists r r', vi_lookup_list ops impl i op_in xs = Some r /\ vi_lookup_list ops impl i op_not_in xs = Some r' /\
      content r = map (fun c => is_val c && existsb (fun x => elem_matches f x c) xs) col /\
      content r' = map (fun c => is_val c && negb (existsb (fun x => elem_matches f x c) xs)) col.
  Proof.
    intros i col f xs J A. unfold vi_lookup_list. cbn [container_lookup].
    assert (NEW : forall b, content (b_new ops (vi_offset ops i) b) = map (fun _ => b) col).
    { intros b. rewrite (content_new _ _ laws), (offset_spec i col J), Nat2N.id. clear. induction col; cbn; congruence. }
    destruct (container_in_spec i col f xs _ (fun _ => false) J A (NEW false)) as (r & -> & C).
    destruct (container_not_in_spec i col f xs _ (fun _ => true) J A (NEW true)) as (r' & -> & C').
    eexists. eexists. split; [reflexivity|]. split; [reflexivity|].
    split.
    - rewrite (finish_spec i col op_in r (fun v => existsb (fun x => elem_matches f x (Val v)) xs)); auto.
      + apply map_ext. intros [| |v]; reflexivity.
      + unfold BitmapOps.len. rewrite C, map_length. lia.
      + intros p v H. unfold BitmapOps.bit. rewrite C.
        assert (p < length col)%nat by (apply nth_error_Some; congruence).
        rewrite (nth_map_default _ _ _ _ Gap) by auto. now rewrite (nth_error_nth _ _ _ H).
    - rewrite (finish_spec i col op_not_in r' (fun v => negb (existsb (fun x => elem_matches f x (Val v)) xs))); auto.
      + apply map_ext. intros [| |v]; reflexivity.
      + unfold BitmapOps.len. rewrite C', map_length. lia.
      + intros p v H. unfold BitmapOps.bit. rewrite C'.
        assert (p < length col)%nat by (apply nth_error_Some; congruence).
        rewrite (nth_map_default _ _ _ _ Gap) by auto. now rewrite (nth_error_nth _ _ _ H).
  Qed.
End Proofs.

(** * Histories *)

(** Appends a list of values at positions; [None] if one of them is refused. *)
Fixpoint vi_run {B S V X} (ops : bitmap_ops B) (impl : index_impl B S V X) (i : vindex B S)
  (h : list (option V * nat)) : option (vindex B S) :=
  match h with
  | [] => Some i
  | (x, pos) :: h' =>
    match vi_append ops impl i x (N.of_nat pos) with
    | None => None
    | Some i' => vi_run ops impl i' h'
    end
  end.
Fixpoint column {V} (col : list (cell V)) (h : list (option V * nat)) : option (list (cell V)) :=
  match h with
  | [] => Some col
  | (x, pos) :: h' => match write col x pos with None => None | Some col' => column col' h' end
  end.

Lemma run_spec : forall {B S V X} (ops : bitmap_ops B) content, bitmap_laws ops content ->
  forall (impl : index_impl B S V X) I h i col, VInv content I i col ->
  (forall v pos, In (Some v, pos) h -> accepts impl I v) ->
  match column col h with
  | None => vi_run ops impl i h = None
  | Some col' => exists i', vi_run ops impl i h = Some i' /\ VInv content I i' col'
  end.
Proof.
  intros B S V X ops content laws impl I. induction h as [|[x pos] h IH]; intros i col J A; cbn [column vi_run]; eauto.
  pose proof (append_spec ops content laws impl I i col x pos J) as Q.
  destruct (write col x pos) as [col'|].
  - destruct Q as (i' & -> & J'); [intros v ->; apply (A v pos); now left|].
    apply IH; auto. intros v p Hv. apply (A v p). now right.
  - rewrite Q; auto. intros v ->. apply (A v pos). now left.
Qed.
