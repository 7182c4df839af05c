(** C14: lookups in list indexes. *)
From Coq Require Import List ZArith NArith Lia Bool ZifyBool ZifyNat ZifyN.
From Verif Require Import WordProofs OperatorModel PropsBitmapOps BitmapOps CoderModel CoderProofs PropsCoder ValueIndexModel ValueIndexProofs PropsIndex SelProofs
  ArithIndexModel AddressProofs StringIndexModel StringIndexProofs ListIndexModel PropsAddressIndex PropsStringIndex.
Import ListNotations.
Open Scope N_scope.

(** The final step of a lookup other than [!=] keeps exactly the bits of rows with values. *)
Lemma finish_any : forall {B} (ops : bitmap_ops B) content, bitmap_laws ops content ->
  forall {S V} (I : S -> list (option V) -> Prop) i col op r, VInv content I i col -> (len content r <= length col)%nat -> relop_eqb op op_ne = false ->
  content (vi_finish ops i op r) = map (fun p => bit content r p && is_val (nth p col Gap)) (seq 0 (length col)).
Proof.
  intros B ops content laws S V I i col op r J L NE. pose proof J as (GM & GN & M & _).
  pose proof (good_len _ _ _ _ GM) as LM. rewrite map_length in LM.
  unfold vi_finish. rewrite NE, (offset_spec ops content laws I i col J), !(size_len _ _ laws).
  assert (BB : forall p, (p < length col)%nat ->
    bit content (b_and ops r (vi_mask i)) p = nth p (map (fun p => bit content r p && is_val (nth p col Gap)) (seq 0 (length col))) false).
  { intros p HP. rewrite (nth_map_default _ _ _ _ 0%nat) by (now rewrite seq_length). rewrite seq_nth by auto.
    rewrite (bit_and _ _ laws). now rewrite (mask_bit content I i col p J). }
  assert (LA : (len content (b_and ops r (vi_mask i)) <= length col)%nat) by (rewrite (len_and _ _ laws); lia).
  destruct (N.ltb_spec (N.of_nat (len content (b_and ops r (vi_mask i)))) (N.of_nat (length col))) as [H|H].
  - apply content_ext; [rewrite (len_app _ _ laws), map_length, seq_length; lia|].
    intros p HP. rewrite map_length, seq_length in HP. rewrite <- BB by auto. rewrite (bit_app _ _ laws), andb_false_r.
    destruct (Nat.ltb_spec p (len content (b_and ops r (vi_mask i)))) as [Q|Q]; auto.
    unfold BitmapOps.bit, BitmapOps.len in *. now rewrite nth_overflow.
  - apply content_ext; [rewrite map_length, seq_length; lia|]. intros p HP. rewrite map_length, seq_length in HP. now apply BB.
Qed.

Section Lists.
  Context {B : Type} (ops : bitmap_ops B) (content : B -> list bool) (laws : bitmap_laws ops content).
  Context {S V X : Type} (elem : index_impl B S V X) (fresh : S) (EI : S -> list (option V) -> Prop).
  Context (FRESH : EI fresh []).
  Variable (m : nat).

  (** What the index for element [j] holds in a row. *)
  Definition elem_cell (j : nat) (v : list (option V)) : cell V :=
    match nth_error (firstn m v) j with Some x => cell_of x | None => Gap end.
  Definition elem_rows (j : nat) (vals : list (option (list (option V)))) : list (cell V) :=
    map (fun o => match o with Some v => elem_cell j v | None => Gap end) vals.
  Definition acceptable (v : list (option V)) : Prop := forall e, In (Some e) v -> accepts elem EI e.

  Definition LInv (s : lindex B S) (vals : list (option (list (option V)))) : Prop :=
    l_max s = N.of_nat m /\
    (forall j e, nth_error (l_elements s) j = Some e -> exists rows k, rows ++ repeat Gap k = elem_rows j vals /\ VInv content EI e rows) /\
    (forall v, In (Some v) vals -> (length (firstn m v) <= length (l_elements s))%nat).

  Lemma LInv_new : LInv (l_new (N.of_nat m)) [].
  Proof. split; [reflexivity|]. cbn [l_elements l_new]. split; [intros j e H; destruct j; discriminate|intros v []]. Qed.

  Lemma map_gap : forall {A} (l : list A), map (fun _ => @Gap V) l = repeat Gap (length l).
  Proof. induction l; cbn; congruence. Qed.

  Lemma firstn_nth : forall (v : list (option V)) j, (j < length (firstn m v))%nat -> nth_error (firstn m v) j = Some (nth j v None).
  Proof.
    intros v j H. rewrite (nth_error_nth' (firstn m v) None H). f_equal. rewrite firstn_length in H.
    assert (Q : (j < m)%nat) by lia. clear -Q. revert j m Q. induction v as [|y v IH]; intros j m Q; destruct m; cbn; auto; try lia.
    destruct j; auto. apply IH. lia.
  Qed.

  Lemma list_accepts : forall v, acceptable v -> accepts (list_impl ops elem fresh) LInv v.
  Proof.
    intros v AC s vals pos (MX & EL & LN) P. cbn [i_append list_impl]. unfold l_append. eexists. split; [reflexivity|].
    rewrite MX, Nat2N.id. replace (Nat.min (length v) m) with (length (firstn m v)) by (rewrite firstn_length; lia).
    split; [reflexivity|]. cbn [l_elements].
    set (es := l_elements s ++ repeat (vi_new ops fresh) (length (firstn m v) - length (l_elements s))).
    assert (LE : length es = Nat.max (length (l_elements s)) (length (firstn m v))) by (unfold es; rewrite app_length, repeat_length; lia).
    split.
    - intros j e H. rewrite nth_error_mapi in H. destruct (nth_error es j) as [e0|] eqn:E; [|discriminate].
      cbn [option_map Nat.add] in H. injection H as <-.
      assert (C0 : exists rows k, rows ++ repeat Gap k = elem_rows j vals /\ VInv content EI e0 rows).
      { unfold es in E. destruct (Nat.lt_ge_cases j (length (l_elements s))) as [L|L].
        - rewrite nth_error_app1 in E by auto. eauto.
        - rewrite nth_error_app2 in E by auto. apply nth_error_In, repeat_spec in E. subst e0.
          exists [], (length vals). split; [|now apply (VInv_new ops content laws)]. cbn [app]. unfold elem_rows.
          rewrite <- (map_gap vals). apply map_ext_in. intros [w|] I; auto. unfold elem_cell.
          rewrite (proj2 (nth_error_None _ _)); auto. specialize (LN w I). lia. }
      destruct C0 as (rows & k & ER & VI).
      assert (LR : (length rows + k = length vals)%nat).
      { assert (Q : length (elem_rows j vals) = length vals) by (unfold elem_rows; apply map_length).
        rewrite <- Q, <- ER, app_length, repeat_length. reflexivity. }
      assert (RA : elem_rows j (vals ++ repeat None (pos - length vals) ++ [Some v]) = rows ++ repeat Gap (pos - length rows) ++ [elem_cell j v]).
      { unfold elem_rows. rewrite !map_app, map_repeat. fold (elem_rows j vals). rewrite <- ER, <- app_assoc. f_equal.
        cbn [map]. rewrite app_assoc. f_equal. rewrite <- repeat_app. f_equal. lia. }
      rewrite RA. destruct (Nat.ltb_spec j (length (firstn m v))) as [Q|Q].
      + pose proof (append_spec ops content laws elem EI e0 rows (nth j v None) pos VI) as A.
        unfold write in A. replace (pos <? length rows)%nat with false in A by lia.
        destruct A as (e1 & E1 & V1).
        { intros w HW. apply AC. rewrite <- HW. assert (j < length v)%nat by (rewrite firstn_length in Q; lia). now apply nth_In. }
        unfold elem_append. rewrite E1. eexists. exists 0%nat. split; [|exact V1]. rewrite app_nil_r. unfold elem_cell. now rewrite firstn_nth by auto.
      + exists rows, (pos - length rows + 1)%nat. split; auto. unfold elem_cell. rewrite (proj2 (nth_error_None _ _)) by lia.
        now rewrite repeat_app.
    - intros w H. rewrite mapi_length, LE. rewrite !in_app_iff in H. destruct H as [H|[H|[H|[] ] ] ].
      + specialize (LN w H). lia.
      + apply repeat_spec in H. discriminate.
      + injection H as <-. lia.
  Qed.

  (** A list contains a value that matches. *)
  Definition contains (f : V -> bool) (v : list (option V)) : bool := existsb (fun e => match e with Some e => f e | None => false end) v.

  Section Lookup.
    Variable (s : lindex B S) (vals : list (option (list (option V)))) (off : nat) (x : X) (f : V -> bool).
    Context (LI : LInv s vals) (OFF : (length vals <= off)%nat) (AN : answers content elem EI op_eq x f).
    Notation wsel := (wsel content off vals).

    Definition elem_hit (j : nat) (v : list (option V)) : bool := match elem_cell j v with Val e => f e | _ => false end.

    Lemma elem_wsel : forall j e, nth_error (l_elements s) j = Some e ->
      exists r, vi_lookup ops elem e op_eq (Some x) = Some r /\ wsel r (elem_hit j) /\
        forall p v, nth_error vals p = Some (Some v) -> (j < length (firstn m v))%nat -> (p < len content r)%nat.
    Proof.
      intros j e E. destruct LI as (MX & EL & LN). destruct (EL j e E) as (rows & k & ER & VI).
      destruct (lookup_spec ops content laws elem EI e rows op_eq x f VI AN) as (r & Q & C). exists r. split; auto.
      assert (LR : (length rows + k = length vals)%nat).
      { assert (QQ : length (elem_rows j vals) = length vals) by (unfold elem_rows; apply map_length).
        rewrite <- QQ, <- ER, app_length, repeat_length. reflexivity. }
      assert (LC : len content r = length rows) by (unfold BitmapOps.len; rewrite C; apply map_length).
      assert (NR : forall p v, nth_error vals p = Some (Some v) -> nth p rows Gap = elem_cell j v).
      { intros p v H. assert (NV : nth p (elem_rows j vals) Gap = elem_cell j v).
        { unfold elem_rows. rewrite (nth_map_default _ _ _ _ None) by (apply nth_error_Some; congruence). now rewrite (nth_error_nth _ _ _ H). }
        rewrite <- NV, <- ER. destruct (Nat.lt_ge_cases p (length rows)) as [L|L].
        - now rewrite app_nth1.
        - rewrite app_nth2 by auto. rewrite nth_overflow by auto. destruct (Nat.lt_ge_cases (p - length rows) k) as [L'|L'].
          + symmetry. apply nth_repeat.
          + now rewrite nth_overflow by (rewrite repeat_length; lia). }
      split.
      - split; [lia|]. intros p v H. specialize (NR p v H). unfold elem_hit. rewrite <- NR. unfold BitmapOps.bit. rewrite C.
        destruct (Nat.lt_ge_cases p (length rows)) as [L|L].
        + rewrite (nth_map_default _ _ _ _ Gap) by auto. now destruct (nth p rows Gap).
        + rewrite nth_overflow by (now rewrite map_length). now rewrite nth_overflow.
      - intros p v H L. rewrite LC. destruct (Nat.lt_ge_cases p (length rows)) as [L'|L']; auto.
        specialize (NR p v H). rewrite nth_overflow in NR by auto. unfold elem_cell in NR. rewrite firstn_nth in NR by auto.
        destruct (nth j v None); discriminate.
    Qed.

    Lemma loop_wsel : forall es j result g,
      (forall i e, nth_error es i = Some e -> nth_error (l_elements s) (j + i) = Some e) -> wsel result g ->
      exists r, l_lookup_loop ops elem es x result = Some r /\
        wsel r (fun v => g v || existsb (fun i => elem_hit i v) (seq j (length es))) /\
        (len content result <= len content r)%nat /\
        forall p v i, nth_error vals p = Some (Some v) -> (i < length es)%nat -> (j + i < length (firstn m v))%nat -> (p < len content r)%nat.
    Proof.
      induction es as [|e es IH]; intros j result g C W; cbn [l_lookup_loop length seq existsb].
      - exists result. split; auto. split; [eapply wsel_ext; [|exact W]; intros v _; now rewrite orb_false_r|]. split; auto. intros; lia.
      - destruct (elem_wsel j e) as (bm & -> & SB & LB).
        { rewrite <- (Nat.add_0_r j). apply C. reflexivity. }
        assert (C' : forall i e', nth_error es i = Some e' -> nth_error (l_elements s) (Datatypes.S j + i) = Some e').
        { intros i e' H. replace (Datatypes.S j + i)%nat with (j + Datatypes.S i)%nat by lia. now apply C. }
        pose proof (wsel_or ops content laws off vals _ _ _ _ W SB) as WO.
        destruct (IH (Datatypes.S j) _ _ C' WO) as (r & E & WR & LR & PR).
        exists r. split; auto. rewrite (len_or _ _ laws) in LR. split; [|split; [lia|] ].
        + eapply wsel_ext; [|exact WR]. intros v _. cbn beta. now rewrite orb_assoc.
        + intros p v i H I L. destruct i as [|i].
          * rewrite Nat.add_0_r in L. specialize (LB p v H L). lia.
          * apply (PR p v i H); lia.
    Qed.

    Lemma hits_contains : forall v k, (length (firstn m v) <= k)%nat -> existsb (fun i => elem_hit i v) (seq 0 k) = contains f (firstn m v).
    Proof.
      intros v k L. apply eq_true_iff_eq. unfold contains. rewrite !existsb_exists. split.
      - intros (i & _ & H). unfold elem_hit, elem_cell in H. destruct (nth_error (firstn m v) i) as [[e|]|] eqn:E; try discriminate.
        exists (Some e). split; auto. eapply nth_error_In; eauto.
      - intros ([e|] & I & H); [|discriminate]. apply In_nth_error in I as (i & E). exists i. split.
        + apply in_seq. assert (i < length (firstn m v))%nat by (apply nth_error_Some; congruence). lia.
        + unfold elem_hit, elem_cell. rewrite E. exact H.
    Qed.

    Lemma l_lookup_ni : exists r, l_lookup ops elem s (N.of_nat off) op_ni x = Some r /\ wsel r (fun v => contains f (firstn m v)).
    Proof.
      unfold l_lookup. cbn [relop_eqb]. destruct LI as (_ & _ & LN).
      destruct (l_elements s) as [|e es] eqn:E.
      - eexists. split; [reflexivity|]. eapply wsel_ext; [|apply (wsel_empty ops content laws)]. intros v I. specialize (LN v I).
        destruct (firstn m v); [reflexivity|cbn in LN; lia].
      - rewrite <- E in *. destruct (loop_wsel (l_elements s) 0 (b_empty ops) (fun _ => false) (fun i e0 H => H) (wsel_empty ops content laws off vals))
          as (r & -> & W & _). exists r. split; auto. eapply wsel_ext; [|exact W]. intros v I. cbn beta. cbn [orb]. apply hits_contains. auto.
    Qed.

    Lemma l_lookup_not_ni : exists r, l_lookup ops elem s (N.of_nat off) op_not_ni x = Some r /\ (len content r <= off)%nat /\
      forall p v, nth_error vals p = Some (Some v) ->
        (bit content r p = true -> contains f (firstn m v) = false) /\
        (forall q w, (p <= q)%nat -> nth_error vals q = Some (Some w) -> firstn m w <> [] -> bit content r p = negb (contains f (firstn m v))).
    Proof.
      unfold l_lookup. cbn [relop_eqb]. destruct LI as (_ & _ & LN).
      destruct (l_elements s) as [|e es] eqn:E.
      - eexists. split; [reflexivity|].
        assert (EE : content (b_empty ops) = []) by apply (law_empty _ _ laws). unfold BitmapOps.len, BitmapOps.bit. rewrite EE.
        split; [cbn; lia|]. intros p v H. split; [destruct p; discriminate|]. intros q w _ HQ NE.
        exfalso. apply NE. specialize (LN w (nth_error_In _ _ HQ)). destruct (firstn m w); [auto|cbn in LN; lia].
      - rewrite <- E in *. destruct (loop_wsel (l_elements s) 0 (b_empty ops) (fun _ => false) (fun i e0 H => H) (wsel_empty ops content laws off vals))
          as (r & -> & [WL W] & LL & PR). eexists. split; [reflexivity|]. rewrite (len_not _ _ laws). split; auto.
        intros p v H. rewrite (bit_not _ _ laws). specialize (W p v H). cbn [orb] in W.
        rewrite hits_contains in W by (apply LN; eapply nth_error_In; eauto). rewrite <- W. split.
        + intros Q. destruct (bit content r p); auto. rewrite andb_false_r in Q. discriminate.
        + intros q w LE HQ NE. assert (q < len content r)%nat.
          { apply (PR q w 0%nat HQ); cbn [Nat.add]; [rewrite E; cbn; lia|]. destruct (firstn m w); [contradiction|cbn; lia]. }
          replace (p <? len content r)%nat with true by lia. reflexivity.
    Qed.
  End Lookup.
End Lists.

(** For an index of elements that is exact for [== x] with meaning [f], and every
    column of lists (with nil elements): [ni x] returns exactly the rows whose
    list contains a matching element among the first [m]. [not_ni x] returns only
    rows without one, and every such row up to the last row with a non-empty list. *)
Theorem C14_contains : forall B (ops : bitmap_ops B) content, bitmap_laws ops content ->
  forall S V X (elem : index_impl B S V X) fresh (EI : S -> list (option V) -> Prop), EI fresh [] ->
  forall m h, (forall v e, In v (values_of h) -> In (Some e) v -> accepts elem EI e) ->
  match column [] h with
  | None => vi_run ops (list_impl ops elem fresh) (vi_new ops (l_new (N.of_nat m))) h = None
  | Some col => exists i, vi_run ops (list_impl ops elem fresh) (vi_new ops (l_new (N.of_nat m))) h = Some i /\
      forall x f, answers content elem EI op_eq x f ->
      exists r r', vi_lookup ops (list_impl ops elem fresh) i op_ni (Some x) = Some r /\
        content r = map (cell_matches op_ni (fun v => contains f (firstn m v))) col /\
        vi_lookup ops (list_impl ops elem fresh) i op_not_ni (Some x) = Some r' /\ length (content r') = length col /\
        forall p, (p < length col)%nat ->
          (nth p (content r') false = true -> exists v, nth_error col p = Some (Val v) /\ contains f (firstn m v) = false) /\
          (forall v q w, nth_error col p = Some (Val v) -> (p <= q)%nat -> nth_error col q = Some (Val w) -> firstn m w <> [] ->
             nth p (content r') false = negb (contains f (firstn m v)))
  end.
Proof.
  intros B ops content laws S V X elem fresh EI FR m h AC.
  pose proof (run_spec ops content laws (list_impl ops elem fresh) (LInv content EI m) h (vi_new ops (l_new (N.of_nat m))) []) as R.
  assert (N0 : VInv content (LInv content EI m) (vi_new ops (l_new (N.of_nat m))) []).
  { apply (VInv_new ops content laws). apply LInv_new. }
  assert (A0 : forall v pos, In (Some v, pos) h -> accepts (list_impl ops elem fresh) (LInv content EI m) v).
  { intros v pos H. apply (list_accepts ops content laws elem fresh EI FR m). intros e He. apply (AC v e); auto. eapply values_of_in; eauto. }
  specialize (R N0 A0). destruct (column [] h) as [col|]; [|exact R].
  destruct R as (i & E & J). exists i. split; auto. intros x f AN.
  destruct (lookup_spec ops content laws (list_impl ops elem fresh) (LInv content EI m) i col op_ni x (fun v => contains f (firstn m v)) J) as (r & D & C).
  { intros s vals off LI OFF. destruct (l_lookup_ni ops content laws elem EI m s vals off x f LI OFF AN) as (r & D & W). exists r. split; auto. }
  pose proof J as (_ & _ & _ & vals & k & LI & EVL).
  destruct (l_lookup_not_ni ops content laws elem EI m (vi_state i) vals (length col) x f LI (vals_length (LInv content EI m) vals k col EVL) AN) as (r0 & D0 & L0 & P0).
  exists r, (vi_finish ops i op_not_ni r0). split; auto. split; [rewrite C; apply map_ext; intros [| |v]; reflexivity|].
  assert (FB : forall p, (p < length col)%nat ->
    nth p (content (vi_finish ops i op_not_ni r0)) false = bit content r0 p && is_val (nth p col Gap) /\ length (content (vi_finish ops i op_not_ni r0)) = length col).
  { intros p HP. pose proof (finish_any ops content laws (LInv content EI m) i col op_not_ni r0 J L0 eq_refl) as FA. rewrite FA. split.
    - rewrite (nth_indep _ false (bit content r0 0 && is_val (nth 0 col Gap))) by (rewrite map_length, seq_length; lia).
      rewrite (map_nth (fun p => bit content r0 p && is_val (nth p col Gap))). now rewrite seq_nth by lia.
    - now rewrite map_length, seq_length. }
  split. { cbn [vi_lookup i_lookup list_impl]. rewrite (offset_spec ops content laws (LInv content EI m) i col J), D0. reflexivity. }
  split.
  { rewrite (finish_any ops content laws (LInv content EI m) i col op_not_ni r0 J L0 eq_refl). now rewrite map_length, seq_length. }
  intros p HP. destruct (FB p HP) as [-> _]. split.
  - intros Q. apply andb_true_iff in Q as [Q1 Q2]. destruct (nth p col Gap) as [| |v] eqn:NC; try discriminate.
    assert (NV : nth_error col p = Some (Val v)) by (rewrite (nth_error_nth' col Gap HP); now f_equal).
    exists v. split; auto. apply (P0 p v (vals_nth vals k col p v EVL NV)). exact Q1.
  - intros v q w NV LE NW NE. rewrite (nth_error_nth _ _ _ NV). cbn [is_val]. rewrite andb_true_r.
    apply (proj2 (P0 p v (vals_nth vals k col p v EVL NV)) q w LE (vals_nth vals k col q w EVL NW) NE).
Qed.

(** The column [1, nil, 2], nil, [] of lists of counts satisfies the hypotheses
    with the index for counts. *)
Example C14_contains_example : exists i,
  vi_run list_ops (list_impl list_ops (enum_impl list_ops) (enum_new list_ops)) (vi_new list_ops (l_new 256))
    [(Some [Some 1; None; Some 2], 0%nat); (None, 1%nat); (Some [], 2%nat); (Some [Some 2], 3%nat)] = Some i /\
  vi_lookup list_ops (list_impl list_ops (enum_impl list_ops) (enum_new list_ops)) i op_ni (Some 2) = Some [true; false; false; true] /\
  vi_lookup list_ops (list_impl list_ops (enum_impl list_ops) (enum_new list_ops)) i op_not_ni (Some 2) = Some [false; false; true; false].
Proof. eexists. split; [vm_compute; reflexivity|]. split; vm_compute; reflexivity. Qed.

(** Lists of enumeration values, of at most [m] elements: [ni] is exact. *)
Theorem C14_enumerations : forall B (ops : bitmap_ops B) content, bitmap_laws ops content ->
  forall m h col, (forall v, In v (values_of h) -> (length v <= m)%nat /\ forall e, In (Some e) v -> e < 256) -> column [] h = Some col ->
  exists i, vi_run ops (list_impl ops (enum_impl ops) (enum_new ops)) (vi_new ops (l_new (N.of_nat m))) h = Some i /\
  forall x, x < 256 -> exists r, vi_lookup ops (list_impl ops (enum_impl ops) (enum_new ops)) i op_ni (Some x) = Some r /\
    content r = map (cell_matches op_ni (fun v => contains (fun e => e =? x) v)) col.
Proof.
  intros B ops content laws m h col H EC.
  pose proof (C14_contains B ops content laws _ _ _ (enum_impl ops) (enum_new ops) (EInv content) (EInv_new ops content laws) m h) as T.
  rewrite EC in T. destruct T as (i & E & L).
  { intros v e Hv He. apply (enum_accepts ops content laws). now apply (H v Hv). }
  exists i. split; auto. intros x HX.
  destruct (L x (fun e => e =? x) (enum_answers ops content laws op_eq x ltac:(cbn; auto) HX)) as (r & _ & D & C & _).
  exists r. split; auto. rewrite C. apply map_ext_cells; auto. intros v Hv. cbn [cell_matches]. rewrite firstn_all2; auto.
  apply H. eapply column_new; eauto.
Qed.
Example C14_enumerations_example : forall v, In v (values_of [(Some [Some 3; None], 0%nat)]) -> (length v <= 256)%nat /\ forall e, In (Some e) v -> e < 256.
Proof. cbn [values_of flat_map fst app]. intros v [<-|[] ]. split; [cbn [length]; lia|]. intros e [E|[E|[] ] ]; [injection E as <-; reflexivity|discriminate]. Qed.

(** Lists of strings. *)
Theorem C14_strings : forall B (ops : bitmap_ops B) content, bitmap_laws ops content ->
  forall m k h col, N.of_nat k mod 10 <> 0 ->
  (forall v, In v (values_of h) -> (length v <= m)%nat /\ forall e, In (Some e) v -> bytes e /\ (length e <= k)%nat) -> column [] h = Some col ->
  exists s i, st_new ops (N.of_nat k) = Some s /\ vi_run ops (list_impl ops (string_impl ops) s) (vi_new ops (l_new (N.of_nat m))) h = Some i /\
  forall x, no_ff x -> (length x <= k)%nat ->
  exists r, vi_lookup ops (list_impl ops (string_impl ops) s) i op_ni (Some x) = Some r /\
    content r = map (cell_matches op_ni (fun v => contains (fun e => same e x) v)) col.
Proof.
  intros B ops content laws m k h col MOD H EC. destruct (StInv_new ops content k MOD) as (s & ES & SI).
  pose proof (C14_contains B ops content laws _ _ _ (string_impl ops) s (StInv ops content k) SI m h) as T.
  rewrite EC in T. destruct T as (i & E & L).
  { intros v e Hv He. apply (string_accepts ops content laws k MOD). now apply (H v Hv). }
  exists s, i. split; auto. split; auto. intros x NF LX.
  destruct (L x _ (string_answers ops content laws k MOD op_eq x NF ltac:(cbn; auto))) as (r & _ & D & C & _).
  exists r. split; auto. rewrite C. apply map_ext_cells; auto. intros v Hv. cbn [cell_matches].
  destruct (H v (column_new _ _ _ EC Hv)) as [L1 L2]. rewrite firstn_all2 by auto. unfold contains. apply existsb_ext_in.
  intros [e|] He; auto. destruct (L2 e He) as [_ LE]. cbn [string_meaning]. unfold clip. rewrite !firstn_all2 by auto. symmetry. apply same_eqb.
Qed.
Example C14_strings_example : forall v, In v (values_of [(Some [Some [97]; Some []; None], 0%nat)]) ->
  (length v <= 256)%nat /\ forall e, In (Some e) v -> bytes e /\ (length e <= 1024)%nat.
Proof.
  cbn [values_of flat_map fst app]. intros v [<-|[] ]. split; [cbn [length]; lia|].
  intros e [E|[E|[E|[] ] ] ]; try discriminate; injection E as <-; split; cbn [length]; try lia; unfold bytes; repeat constructor.
Qed.

(** [not_ni] misses rows with empty lists after the last non-empty list. *)
Theorem C14_not_contains_refuted : exists i,
  vi_run list_ops (list_impl list_ops (enum_impl list_ops) (enum_new list_ops)) (vi_new list_ops (l_new 256)) [(Some [Some 1], 0%nat); (Some [], 1%nat)] = Some i /\
  contains (fun e => e =? 2) [] = false /\
  vi_lookup list_ops (list_impl list_ops (enum_impl list_ops) (enum_new list_ops)) i op_not_ni (Some 2) = Some [true; false].
Proof. eexists. split; [vm_compute; reflexivity|]. split; [reflexivity|vm_compute; reflexivity]. Qed.

(** [ni] misses an element after the maximum number of elements. *)
Theorem C14_truncated_refuted : exists m v i, contains (fun e => e =? 3) v = true /\
  vi_run list_ops (list_impl list_ops (enum_impl list_ops) (enum_new list_ops)) (vi_new list_ops (l_new m)) [(Some v, 0%nat)] = Some i /\
  vi_lookup list_ops (list_impl list_ops (enum_impl list_ops) (enum_new list_ops)) i op_ni (Some 3) = Some [false].
Proof. exists 2, [Some 1; Some 2; Some 3]. eexists. split; [reflexivity|]. split; vm_compute; reflexivity. Qed.

Definition assumptions_list_index := (C14_contains, C14_enumerations, C14_strings, C14_not_contains_refuted, C14_truncated_refuted).
Print Assumptions assumptions_list_index.
