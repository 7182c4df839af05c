From Coq Require Import List NArith ZArith Bool Lia Permutation.
From Verif Require Import DataModel ConfigModel.
Import ListNotations.
Open Scope N_scope.

(** ** What the properties speak about. *)

(** The value at the end of a path of names. *)
Fixpoint get (p : list name) (x : data) : option data :=
  match p with
  | [] => Some x
  | k :: q => match x with DRecord fs => match find k fs with Some v => get q v | None => None end | _ => None end
  end.
Definition oget (p : list name) (o : option data) : option data := match o with Some d => get p d | None => None end.

(** How a record speaks about a path. *)
Inductive mention := At (v : data) | Blocked | Missing.
Fixpoint reach (p : list name) (x : data) : mention :=
  match p with
  | [] => At x
  | k :: q => match x with DRecord fs => match find k fs with Some v => reach q v | None => Missing end | _ => Blocked end
  end.

Fixpoint join (p : list name) : name :=
  match p with [] => [] | k :: q => match q with [] => k | _ => k ++ dot :: join q end end.

(** Names in a record are distinct and have no dot, down to any depth. *)
Fixpoint clean (x : data) : Prop :=
  match x with
  | DRecord fs => NoDup (map fst fs)
                  /\ (fix loop (fs : fields) : Prop :=
                        match fs with [] => True | (k, v) :: r => ~ In dot k /\ clean v /\ loop r end) fs
  | _ => True
  end.

(** The number of records inside a record. *)
Fixpoint sections (x : data) : N :=
  match x with
  | DRecord fs => (fix loop (fs : fields) : N :=
                     match fs with [] => 0 | (k, v) :: r => (if is_record v then 1 + sections v else 0) + loop r end) fs
  | _ => 0
  end.

(** The values of a record that are no records, with their paths, in order. *)
Fixpoint leaves (x : data) : list (list name * data) :=
  match x with
  | DRecord fs => (fix loop (fs : fields) : list (list name * data) :=
                     match fs with
                     | [] => []
                     | (k, v) :: r => match v with
                                      | DRecord _ => map (fun q => (k :: fst q, snd q)) (leaves v)
                                      | _ => [([k], v)]
                                      end ++ loop r
                     end) fs
  | _ => []
  end.

(** ** Induction over the records in a record. *)
Section Ind.
  Variable P : data -> Prop.
  Hypothesis Pleaf : forall x, is_record x = false -> P x.
  Hypothesis Prec : forall fs, Forall (fun f => P (snd f)) fs -> P (DRecord fs).
  Fixpoint rec_ind (x : data) : P x :=
    match x with
    | DRecord fs => Prec fs ((fix loop (fs : fields) : Forall (fun f => P (snd f)) fs :=
                                match fs with [] => Forall_nil _ | f :: r => Forall_cons f (rec_ind (snd f)) (loop r) end) fs)
    | DNone => Pleaf DNone eq_refl | DBool b => Pleaf (DBool b) eq_refl | DInt z => Pleaf (DInt z) eq_refl
    | DCount n => Pleaf (DCount n) eq_refl | DReal p => Pleaf (DReal p) eq_refl | DDuration z => Pleaf (DDuration z) eq_refl
    | DTime z => Pleaf (DTime z) eq_refl | DString s => Pleaf (DString s) eq_refl | DPattern s => Pleaf (DPattern s) eq_refl
    | DAddress a => Pleaf (DAddress a) eq_refl | DSubnet s => Pleaf (DSubnet s) eq_refl | DEnum n => Pleaf (DEnum n) eq_refl
    | DList xs => Pleaf (DList xs) eq_refl | DMap xs => Pleaf (DMap xs) eq_refl
    end.
End Ind.

(** ** Maps. *)
Lemma name_eqb_spec x : forall y, name_eqb x y = true <-> x = y.
Proof.
  induction x as [|a x IH]; intros [|b y]; cbn; try (split; congruence).
  rewrite andb_true_iff, IH, N.eqb_eq. split; [intros [-> ->]; reflexivity | intros E; injection E as -> ->; auto].
Qed.
Lemma name_eqb_refl x : name_eqb x x = true.
Proof. now apply name_eqb_spec. Qed.
Lemma name_eqb_neq x y : x <> y -> name_eqb x y = false.
Proof. intros H. destruct (name_eqb x y) eqn:E; [apply name_eqb_spec in E; contradiction | reflexivity]. Qed.
Lemma name_dec (x y : name) : {x = y} + {x <> y}.
Proof. destruct (name_eqb x y) eqn:E; [left; now apply name_eqb_spec | right; intros ->; rewrite name_eqb_refl in E; discriminate]. Qed.

Lemma find_assign k v k' fs : find k' (assign k v fs) = if name_eqb k k' then Some v else find k' fs.
Proof.
  induction fs as [|[a w] fs IH]; cbn; [reflexivity|].
  destruct (name_eqb a k) eqn:E; cbn.
  - apply name_eqb_spec in E as ->. now destruct (name_eqb k k').
  - rewrite IH. destruct (name_eqb a k') eqn:E'; [|reflexivity].
    apply name_eqb_spec in E' as ->. rewrite (name_eqb_neq k k'); [reflexivity|]. intros ->. now rewrite name_eqb_refl in E.
Qed.
Lemma find_In k fs v : find k fs = Some v -> In (k, v) fs.
Proof.
  induction fs as [|[a w] fs IH]; cbn; [discriminate|]. destruct (name_eqb a k) eqn:E; [|auto].
  intros X. injection X as ->. apply name_eqb_spec in E as ->. now left.
Qed.
Lemma find_None k fs : find k fs = None <-> ~ In k (map fst fs).
Proof.
  induction fs as [|[a w] fs IH]; cbn; [tauto|]. destruct (name_eqb a k) eqn:E.
  - apply name_eqb_spec in E. split; [discriminate | intros H; exfalso; apply H; now left].
  - rewrite IH. split; intros H; [intros [X|X]; [subst; rewrite name_eqb_refl in E; discriminate | auto] | tauto].
Qed.
Lemma In_find k fs v : NoDup (map fst fs) -> In (k, v) fs -> find k fs = Some v.
Proof.
  induction fs as [|[a w] fs IH]; cbn; [contradiction|]. intros ND H. inversion ND as [|? ? NI ND']; subst.
  destruct H as [E|H].
  - injection E as -> ->. now rewrite name_eqb_refl.
  - rewrite (name_eqb_neq a k); [now apply IH|]. intros ->. apply NI. now apply (in_map fst) in H.
Qed.
Lemma assign_keys k v fs : NoDup (map fst fs) -> NoDup (map fst (assign k v fs)).
Proof.
  induction fs as [|[a w] fs IH]; cbn; intros ND; [constructor; [easy | constructor]|].
  inversion ND as [|? ? NI ND']; subst. destruct (name_eqb a k) eqn:E; cbn; [constructor; assumption|].
  constructor; [|now apply IH].
  rewrite <- find_None, find_assign. rewrite (name_eqb_neq k a); [now apply find_None|].
  intros ->. now rewrite name_eqb_refl in E.
Qed.
Lemma assign_Forall (P : name * data -> Prop) k v fs : P (k, v) -> Forall P fs -> Forall P (assign k v fs).
Proof.
  intros Hk. induction 1 as [|[a w] fs Ha H IH]; cbn; [now repeat constructor|].
  destruct (name_eqb a k) eqn:E; [apply name_eqb_spec in E as ->; now constructor | now constructor].
Qed.

(** ** The budget. *)
Fixpoint fits (x : data) (m : N) : Prop :=
  match x with
  | DRecord fs => m <> 0
                  /\ (fix loop (fs : fields) (m : N) : Prop :=
                        match fs with
                        | [] => True
                        | (k, v) :: r => let m' := if is_record v then dec m else m in fits v m' /\ loop r m'
                        end) fs m
  | _ => True
  end.
Fixpoint fits_loop (fs : fields) (m : N) : Prop :=
  match fs with
  | [] => True
  | (k, v) :: r => let m' := if is_record v then dec m else m in fits v m' /\ fits_loop r m'
  end.
Lemma fits_record fs m : fits (DRecord fs) m = (m <> 0 /\ fits_loop fs m).
Proof. reflexivity. Qed.
Fixpoint clean_loop (fs : fields) : Prop :=
  match fs with [] => True | (k, v) :: r => ~ In dot k /\ clean v /\ clean_loop r end.
Lemma clean_record fs : clean (DRecord fs) = (NoDup (map fst fs) /\ clean_loop fs).
Proof. reflexivity. Qed.
Lemma clean_loop_Forall fs : clean_loop fs <-> Forall (fun f => ~ In dot (fst f) /\ clean (snd f)) fs.
Proof.
  induction fs as [|[k v] fs IH]; cbn; [split; constructor|]. rewrite Forall_cons_iff, IH. cbn. tauto.
Qed.
Fixpoint sections_loop (fs : fields) : N :=
  match fs with [] => 0 | (k, v) :: r => (if is_record v then 1 + sections v else 0) + sections_loop r end.
Lemma sections_record fs : sections (DRecord fs) = sections_loop fs.
Proof. reflexivity. Qed.

Lemma sections_leaf x : is_record x = false -> sections x = 0.
Proof. now destruct x. Qed.
Lemma fits_leaf x m : is_record x = false -> fits x m.
Proof. now destruct x. Qed.
Lemma clean_leaf x : is_record x = false -> clean x.
Proof. now destruct x. Qed.

Lemma dec_small m : m <> 0 -> dec m = m - 1.
Proof. intros H. unfold dec. destruct (m =? 0) eqn:E; [apply N.eqb_eq in E; contradiction | reflexivity]. Qed.

Lemma sections_fit x : forall m, sections x < m -> fits x m.
Proof.
  induction x as [x H|fs IH] using rec_ind; intros m Hm; [now apply fits_leaf|].
  rewrite fits_record. rewrite sections_record in Hm. split; [lia|].
  revert m Hm. induction IH as [|[k v] r Hv _ IHr]; intros m Hm; cbn; [exact I|].
  cbn [sections_loop snd] in Hm, Hv. destruct (is_record v) eqn:R.
  - assert (m <> 0) by lia. rewrite dec_small by assumption. split; [apply Hv; lia | apply IHr; lia].
  - split; [now apply fits_leaf | apply IHr; lia].
Qed.

(** ** Merging. *)
Section Loop.
  Variable l : bool.
  Fixpoint mloop (fs : fields) (dst : fields) (m : N) : fields :=
    match fs with
    | [] => dst
    | (k, w) :: r => let m' := if is_record w then dec m else m in mloop r (assign k (merge_val l w (find k dst) m') dst) m'
    end.
End Loop.
Definition base (old : option data) : fields := match old with Some (DRecord g) => g | _ => [] end.
Lemma merge_val_record l fs old m :
  merge_val l (DRecord fs) old m = DRecord (if m =? 0 then base old else mloop l fs (base old) m).
Proof.
  transitivity (if m =? 0 then DRecord (base old) else DRecord (mloop l fs (base old) m)); [reflexivity | now destruct (m =? 0)].
Qed.

Lemma mloop_find l fs : forall dst m, NoDup (map fst fs) -> fits_loop fs m -> forall k,
  match find k fs with
  | Some w => exists m', fits w m' /\ find k (mloop l fs dst m) = Some (merge_val l w (find k dst) m')
  | None => find k (mloop l fs dst m) = find k dst
  end.
Proof.
  induction fs as [|[a w] fs IH]; intros dst m ND F k; [reflexivity|].
  cbn [map fst] in ND. inversion ND as [|? ? NI ND']; subst.
  cbn [fits_loop] in F. cbv zeta in F. destruct F as [F1 F2].
  cbn [find mloop]. cbv zeta. set (m' := if is_record w then dec m else m) in *.
  specialize (IH (assign a (merge_val l w (find a dst) m') dst) m' ND' F2 k).
  destruct (name_eqb a k) eqn:E.
  - apply name_eqb_spec in E as ->. apply find_None in NI. rewrite NI in IH. exists m'. split; [exact F1|].
    rewrite IH, find_assign, name_eqb_refl. reflexivity.
  - rewrite find_assign, E in IH. exact IH.
Qed.

(** What a value that is no record makes of the value before. *)
Definition over (l : bool) (v : data) (old : option data) : data :=
  match v, l with
  | DList ys, true => match old with
                      | Some (DList xs) => DList (xs ++ ys)
                      | Some DNone | None => DList ys
                      | Some x => DList (x :: ys)
                      end
  | _, _ => v
  end.
Lemma merge_val_leaf l v old m : is_record v = false -> merge_val l v old m = over l v old.
Proof. destruct v; cbn; try discriminate; destruct l; reflexivity. Qed.

Lemma find_base k old : find k (base old) = oget [k] old.
Proof. destruct old as [[]|]; cbn; try reflexivity. now destruct (find k xs). Qed.
Lemma oget_cons k p old : oget (k :: p) old = oget p (find k (base old)).
Proof. destruct old as [[]|]; cbn; try reflexivity. Qed.

Lemma clean_find k fs w : clean (DRecord fs) -> find k fs = Some w -> clean w /\ ~ In dot k.
Proof.
  rewrite clean_record. intros [_ C] F. apply find_In in F. apply clean_loop_Forall in C.
  rewrite Forall_forall in C. specialize (C _ F). cbn in C. tauto.
Qed.

Lemma merge_get l p : forall s old m, clean s -> fits s m ->
  match reach p s with
  | At v => if is_record v then exists g, get p (merge_val l s old m) = Some (DRecord g)
            else get p (merge_val l s old m) = Some (over l v (oget p old))
  | Blocked => get p (merge_val l s old m) = None
  | Missing => get p (merge_val l s old m) = oget p old
  end.
Proof.
  induction p as [|k p IH]; intros s old m C F.
  - cbn [reach get]. destruct (is_record s) eqn:R.
    + destruct s; try discriminate. rewrite merge_val_record. eauto.
    + rewrite merge_val_leaf by exact R. replace (oget [] old) with old by (destruct old; reflexivity). reflexivity.
  - destruct (is_record s) eqn:R.
    2: { replace (reach (k :: p) s) with Blocked by (destruct s; try discriminate R; reflexivity).
         rewrite merge_val_leaf by exact R.
         destruct s; try discriminate; cbn; try reflexivity. destruct l; [|reflexivity]. destruct old as [[]|]; reflexivity. }
    destruct s as [| | | | | | | | | | | | | |fs]; try discriminate. cbn [reach].
    rewrite fits_record in F. destruct F as [M F].
    rewrite merge_val_record. apply N.eqb_neq in M. rewrite M. cbn [get].
    assert (ND : NoDup (map fst fs)) by (rewrite clean_record in C; apply C).
    pose proof (mloop_find l fs (base old) m ND F k) as H.
    destruct (find k fs) as [w|] eqn:W.
    + destruct H as (m' & Fw & ->). destruct (clean_find _ _ _ C W) as [Cw _].
      specialize (IH w (find k (base old)) m' Cw Fw). rewrite oget_cons. exact IH.
    + rewrite H, oget_cons. now destruct (find k (base old)).
Qed.

(** Merging keeps records clean. *)
Lemma merge_clean l s : clean s -> forall old m, (forall d, old = Some d -> clean d) -> clean (merge_val l s old m).
Proof.
  induction s as [s R|fs IH] using rec_ind; intros C old m O.
  - rewrite merge_val_leaf by exact R. destruct s; try discriminate; cbn; try exact I. destruct l; [|exact I].
    destruct old as [[]|]; exact I.
  - rewrite merge_val_record.
    assert (B : clean (DRecord (base old))).
    { assert (Z : clean (DRecord [])) by (split; [constructor | exact I]).
      destruct old as [d|]; [|exact Z]. specialize (O d eq_refl). destruct d; first [exact Z | exact O]. }
    destruct (m =? 0); [exact B|]. clear O.
    rewrite clean_record in C. destruct C as [_ C].
    generalize dependent (base old). revert m. induction IH as [|[k w] r Hw _ IHr]; intros m dst B; [exact B|].
    cbn [mloop clean_loop snd] in *. destruct C as (Ck & Cw & Cr). apply IHr; [exact Cr|].
    pose proof B as B0. rewrite clean_record in *. destruct B as [B1 B2]. split; [now apply assign_keys|].
    apply clean_loop_Forall. apply assign_Forall; [|now apply clean_loop_Forall].
    cbn. split; [exact Ck|]. apply Hw; [exact Cw|].
    intros d D. now apply (clean_find k dst).
Qed.

(** Merging adds at most the sections of the source. *)
Definition osections (o : option data) : N := match o with Some d => sections d | None => 0 end.
Definition weight (v : data) : N := if is_record v then 1 + sections v else 0.
Definition oweight (o : option data) : N := match o with Some v => weight v | None => 0 end.
Lemma assign_sections k v fs : NoDup (map fst fs) ->
  sections_loop (assign k v fs) + oweight (find k fs) = sections_loop fs + weight v.
Proof.
  induction fs as [|[a w] fs IH]; cbn [assign find map fst sections_loop oweight]; intros ND; [fold (weight v); lia|]. inversion ND as [|? ? NI ND']; subst.
  destruct (name_eqb a k) eqn:E; cbn [sections_loop oweight]; fold (weight w); fold (weight v); [lia|].
  specialize (IH ND'). lia.
Qed.

Lemma merge_weight l s : clean s -> forall old m, (forall d, old = Some d -> clean d) ->
  weight (merge_val l s old m) <= weight s + osections old.
Proof.
  induction s as [s R|fs IH] using rec_ind; intros C old m O.
  - rewrite merge_val_leaf by exact R. assert (E : is_record (over l s old) = false).
    { destruct s; try discriminate; try reflexivity. destruct l; [|reflexivity]. destruct old as [[]|]; reflexivity. }
    unfold weight at 1. rewrite E. lia.
  - rewrite merge_val_record.
    assert (B : clean (DRecord (base old))).
    { assert (Z : clean (DRecord [])) by (split; [constructor | exact I]).
      destruct old as [d|]; [|exact Z]. specialize (O d eq_refl). destruct d; first [exact Z | exact O]. }
    assert (W : sections_loop (base old) <= osections old).
    { destruct old as [[]|]; cbn [base osections sections_loop]; rewrite ?sections_record; lia. }
    unfold weight at 1 2. cbn [is_record]. rewrite !sections_record.
    destruct (m =? 0); [lia|]. clear O.
    enough (sections_loop (mloop l fs (base old) m) <= sections_loop fs + sections_loop (base old)) by lia. clear W.
    rewrite clean_record in C. destruct C as [_ C].
    generalize dependent (base old). revert m. induction IH as [|[k w] r Hw _ IHr]; intros m dst B; [cbn; lia|].
    cbn [mloop clean_loop snd sections_loop] in *. cbv zeta. destruct C as (Ck & Cw & Cr).
    set (m' := if is_record w then dec m else m).
    assert (CO : forall d, find k dst = Some d -> clean d) by (intros d D; now apply (clean_find k dst)).
    specialize (Hw Cw (find k dst) m' CO).
    pose proof (merge_clean l w Cw (find k dst) m' CO) as CM.
    assert (B' : clean (DRecord (assign k (merge_val l w (find k dst) m') dst))).
    { rewrite clean_record in *. destruct B as [B1 B2]. split; [now apply assign_keys|].
      apply clean_loop_Forall. apply assign_Forall; [|now apply clean_loop_Forall]. cbn. auto. }
    specialize (IHr Cr m' _ B').
    rewrite clean_record in B. destruct B as [B1 _].
    pose proof (assign_sections k (merge_val l w (find k dst) m') dst B1) as A.
    assert (osections (find k dst) <= oweight (find k dst)).
    { destruct (find k dst) as [d|]; cbn [osections oweight]; [|lia]. unfold weight. destruct (is_record d) eqn:R; [lia|].
      rewrite (sections_leaf d R). lia. }
    fold (weight w). lia.
Qed.

(** ** Flattening. *)
Fixpoint floop (fs : fields) (m : N) (acc : fields) : fields :=
  match fs with
  | [] => acc
  | (k, v) :: r =>
      match v with
      | DRecord _ => floop r (dec m) (fold_left (fun acc x => emplace (k ++ dot :: fst x) (snd x) acc) (flatten_val v (dec m)) acc)
      | _ => floop r m (emplace k v acc)
      end
  end.
Lemma flatten_val_record fs m : flatten_val (DRecord fs) m = if m =? 0 then [] else floop fs m [].
Proof. reflexivity. Qed.
Fixpoint lloop (fs : fields) : list (list name * data) :=
  match fs with
  | [] => []
  | (k, v) :: r => match v with DRecord _ => map (fun q => (k :: fst q, snd q)) (leaves v) | _ => [([k], v)] end ++ lloop r
  end.
Lemma leaves_record fs : leaves (DRecord fs) = lloop fs.
Proof. reflexivity. Qed.

Definition block (k : name) (v : data) : list (list name * data) :=
  if is_record v then map (fun q => (k :: fst q, snd q)) (leaves v) else [([k], v)].
Lemma lloop_cons k v r : lloop ((k, v) :: r) = block k v ++ lloop r.
Proof. destruct v; reflexivity. Qed.

(** Paths. *)
Lemma join_cons k q : q <> [] -> join (k :: q) = k ++ dot :: join q.
Proof. now destruct q. Qed.
Lemma app_dot_inj (k k' x x' : name) : ~ In dot k -> ~ In dot k' -> k ++ dot :: x = k' ++ dot :: x' -> k = k' /\ x = x'.
Proof.
  revert k'. induction k as [|a k IH]; intros [|b k'] H H' E; cbn in *.
  - injection E as ->. auto.
  - injection E as E _. exfalso. apply H'. left. congruence.
  - injection E as E _. exfalso. apply H. left. congruence.
  - injection E as -> E. destruct (IH k') as [-> ->]; auto.
Qed.
Definition dotless (p : list name) : Prop := p <> [] /\ Forall (fun k => ~ In dot k) p.
Lemma join_inj p : forall q, dotless p -> dotless q -> join p = join q -> p = q.
Proof.
  induction p as [|k p IH]; intros [|k' q] [Np Fp] [Nq Fq] E; try (exfalso; auto; fail).
  inversion Fp as [|? ? Hk Fp']; subst. inversion Fq as [|? ? Hk' Fq']; subst.
  destruct p as [|k1 p], q as [|k2 q].
  - cbn in E. now subst.
  - rewrite (join_cons k') in E by discriminate. cbn [join] in E. exfalso. apply Hk. rewrite E. apply in_app_iff. right. now left.
  - rewrite (join_cons k) in E by discriminate. cbn [join] in E. exfalso. apply Hk'. rewrite <- E. apply in_app_iff. right. now left.
  - rewrite (join_cons k), (join_cons k') in E by discriminate.
    apply app_dot_inj in E; auto. destruct E as [-> E]. f_equal. apply IH; auto; split; auto; discriminate.
Qed.

Lemma leaves_spec x : clean x -> forall p v, In (p, v) (leaves x) <-> p <> [] /\ get p x = Some v /\ is_record v = false.
Proof.
  induction x as [x R|fs IH] using rec_ind; intros C p v.
  - replace (leaves x) with (@nil (list name * data)) by (destruct x; try discriminate; reflexivity).
    split; [intros []|]. intros (N0 & G & _). destruct p as [|k p]; [contradiction|]. destruct x; discriminate.
  - rewrite leaves_record. rewrite clean_record in C. destruct C as [ND C].
    destruct p as [|k p].
    { split; [|tauto]. intros H. exfalso. clear -H. induction fs as [|[a w] r IHr]; [destruct H|].
      rewrite lloop_cons in H. apply in_app_iff in H as [H|H]; [|auto]. unfold block in H. destruct (is_record w).
      - apply in_map_iff in H as (q & E & _). discriminate.
      - destruct H as [E|[]]. discriminate. }
    transitivity (exists w, In (k, w) fs /\ In (k :: p, v) (block k w)).
    { clear IH ND C. induction fs as [|[a w] r IHr]; [split; [intros [] | intros (? & [] & _)]|].
      rewrite lloop_cons, in_app_iff, IHr. split.
      - intros [H|(w' & H1 & H2)]; [|exists w'; split; [now right | exact H2]].
        assert (a = k).
        { unfold block in H. destruct (is_record w); [apply in_map_iff in H as (q & E & _); congruence | destruct H as [E|[]]; congruence]. }
        subst a. exists w. split; [now left | exact H].
      - intros (w' & [E|H1] & H2); [injection E as -> ->; now left | right; eauto]. }
    split.
    + intros (w & H1 & H2). split; [discriminate|]. cbn [get]. rewrite (In_find _ _ _ ND H1).
      assert (Cw : clean w) by (apply clean_loop_Forall in C; rewrite Forall_forall in C; apply (C _ H1)).
      unfold block in H2. destruct (is_record w) eqn:R.
      * apply in_map_iff in H2 as ([q u] & E & Q). cbn in E. injection E as -> ->.
        rewrite Forall_forall in IH. apply (IH _ H1) in Q; [tauto | exact Cw].
      * destruct H2 as [E|[]]. injection E as <- <-. auto.
    + intros (_ & G & R). cbn [get] in G. destruct (find k fs) as [w|] eqn:W; [|discriminate].
      apply find_In in W. exists w. split; [exact W|].
      assert (Cw : clean w) by (apply clean_loop_Forall in C; rewrite Forall_forall in C; apply (C _ W)).
      unfold block. destruct (is_record w) eqn:RW.
      * apply in_map_iff. exists (p, v). split; [reflexivity|].
        rewrite Forall_forall in IH. apply (IH _ W); [exact Cw|]. split; [|auto].
        intros ->. cbn in G. injection G as ->. congruence.
      * destruct p; [|destruct w; discriminate]. cbn in G. injection G as ->. now left.
Qed.

Lemma leaves_dotless x : clean x -> forall p v, In (p, v) (leaves x) -> dotless p.
Proof.
  intros C p v H. apply leaves_spec in H; [|exact C]. destruct H as (N0 & G & _). split; [exact N0|]. clear N0.
  revert x C G. induction p as [|k p IH]; intros x C G; [constructor|].
  cbn in G. destruct x as [| | | | | | | | | | | | | |fs]; try discriminate.
  destruct (find k fs) as [w|] eqn:W; [|discriminate]. destruct (clean_find _ _ _ C W). constructor; eauto.
Qed.

Lemma NoDup_app_intro {A} (xs ys : list A) : NoDup xs -> NoDup ys -> (forall x, In x xs -> ~ In x ys) -> NoDup (xs ++ ys).
Proof.
  induction 1 as [|x xs NI ND IH]; intros Y D; [exact Y|]. cbn. constructor.
  - rewrite in_app_iff. intros [H|H]; [auto|]. apply (D x); [now left | exact H].
  - apply IH; [exact Y|]. intros z Hz. apply D. now right.
Qed.

Lemma NoDup_app_fst {A} (xs ys : list A) : NoDup (xs ++ ys) -> NoDup xs.
Proof.
  induction xs as [|x xs IH]; intros H; [constructor|]. cbn in H. inversion H as [|? ? NI ND]; subst.
  constructor; [|auto]. intros X. apply NI. apply in_app_iff. now left.
Qed.

Lemma leaves_NoDup x : clean x -> NoDup (map fst (leaves x)).
Proof.
  induction x as [x R|fs IH] using rec_ind; intros C; [destruct x; try discriminate; constructor|].
  rewrite leaves_record. rewrite clean_record in C. destruct C as [ND C].
  induction IH as [|[k w] r Hw Hr IHr]; [constructor|].
  rewrite lloop_cons, map_app. cbn [map fst clean_loop snd] in *. inversion ND as [|? ? NI ND']; subst.
  destruct C as (Ck & Cw & Cr). apply NoDup_app_intro.
  - unfold block. destruct (is_record w); [|cbn; repeat constructor; easy].
    rewrite map_map. cbn. rewrite <- (map_map fst (cons k)). apply FinFun.Injective_map_NoDup; [intros a b E; congruence | auto].
  - auto.
  - intros p Hp Hq. assert (exists q, p = k :: q) as (q & ->).
    { unfold block in Hp. destruct (is_record w); cbn in Hp; [|destruct Hp as [<-|[]]; now exists []].
      rewrite map_map in Hp. apply in_map_iff in Hp as (z & <- & _). now exists (fst z). }
    apply in_map_iff in Hq as ([p' v] & E & Hq). cbn in E. subst p'.
    assert (CR : clean (DRecord r)) by (rewrite clean_record; auto).
    apply (leaves_spec (DRecord r) CR) in Hq as (_ & G & _). cbn [get] in G.
    apply find_None in NI. rewrite NI in G. discriminate.
Qed.

Definition named (xs : list (list name * data)) : fields := map (fun x => (join (fst x), snd x)) xs.

Lemma named_app xs ys : named (xs ++ ys) = named xs ++ named ys.
Proof. apply map_app. Qed.

Lemma named_NoDup x : clean x -> NoDup (map fst (named (leaves x))).
Proof.
  intros C. unfold named. rewrite map_map. cbn. rewrite <- (map_map fst join).
  pose proof (leaves_NoDup x C) as ND. pose proof (leaves_dotless x C) as D.
  induction (leaves x) as [|[p v] r IH]; [constructor|]. cbn in *. inversion ND as [|? ? NI ND']; subst.
  constructor; [|apply IH; [exact ND' | intros p' v' H; apply (D p' v'); now right]].
  intros H. apply in_map_iff in H as (q & E & Q). apply NI.
  apply in_map_iff in Q as ([q' u] & <- & Q). cbn in E.
  assert (q' = p) as <- by (apply join_inj; [apply (D q' u); now right | apply (D p v); now left | exact E]).
  apply in_map_iff. exists (q', u). auto.
Qed.

Lemma emplace_new k v acc : ~ In k (map fst acc) -> emplace k v acc = acc ++ [(k, v)].
Proof. intros H. apply find_None in H. unfold emplace. now rewrite H. Qed.
Lemma emplace_all (f : name -> name) xs : forall acc,
  NoDup (map fst acc ++ map (fun x => f (fst x)) xs) ->
  fold_left (fun acc x => emplace (f (fst x)) (snd x) acc) xs acc = acc ++ map (fun x : name * data => (f (fst x), snd x)) xs.
Proof.
  induction xs as [|[k v] xs IH]; intros acc ND; cbn; [now rewrite app_nil_r|].
  cbn in ND. rewrite emplace_new.
  - rewrite IH; [now rewrite <- app_assoc|]. rewrite map_app. cbn. now rewrite <- app_assoc.
  - apply NoDup_remove_2 in ND. intros H. apply ND. apply in_app_iff. now left.
Qed.

Lemma floop_leaves fs : Forall (fun f => forall m, clean (snd f) -> fits (snd f) m -> flatten_val (snd f) m = named (leaves (snd f))) fs ->
  forall m acc, clean_loop fs -> fits_loop fs m -> NoDup (map fst (acc ++ named (lloop fs))) ->
  floop fs m acc = acc ++ named (lloop fs).
Proof.
  induction 1 as [|[k v] r Hv _ IH]; intros m acc C F ND; [cbn; now rewrite app_nil_r|].
  cbn [snd] in Hv. destruct C as (Ck & Cv & Cr). cbn [fits_loop] in F. cbv zeta in F. destruct F as [Fv Fr].
  rewrite lloop_cons, named_app in *.
  rewrite app_assoc in *.
  destruct (is_record v) eqn:R.
  - destruct v as [| | | | | | | | | | | | | |gs]; try discriminate. cbn [floop].
    assert (B : named (block k (DRecord gs)) = map (fun x => (k ++ dot :: fst x, snd x)) (flatten_val (DRecord gs) (dec m))).
    { rewrite (Hv (dec m)) by assumption. unfold block, named. cbn [is_record]. rewrite !map_map. apply map_ext_in.
      intros [q u] Q. cbn [fst snd]. rewrite join_cons; [reflexivity|]. now apply (leaves_dotless (DRecord gs) Cv q u). }
    rewrite B in *. rewrite (emplace_all (fun x => k ++ dot :: x)).
    + apply IH; [exact Cr | exact Fr | exact ND].
    + rewrite map_app in ND. apply NoDup_app_fst in ND. rewrite map_app, map_map in ND. exact ND.
  - assert (B : named (block k v) = [(k, v)]) by (unfold block; rewrite R; reflexivity). rewrite B in *.
    replace (floop ((k, v) :: r) m acc) with (floop r m (emplace k v acc)) by (destruct v; try discriminate; reflexivity).
    rewrite emplace_new; [apply IH; assumption|].
    rewrite map_app in ND. apply NoDup_app_fst in ND. rewrite map_app in ND. cbn in ND.
    apply NoDup_remove_2 in ND. now rewrite app_nil_r in ND.
Qed.

Lemma flatten_leaves x : forall m, clean x -> fits x m -> flatten_val x m = named (leaves x).
Proof.
  induction x as [x R|fs IH] using rec_ind; intros m C F; [destruct x; try discriminate; reflexivity|].
  rewrite flatten_val_record, leaves_record. rewrite fits_record in F. destruct F as [M F].
  apply N.eqb_neq in M. rewrite M. pose proof (named_NoDup _ C) as ND. rewrite clean_record in C.
  apply (floop_leaves fs IH m [] (proj2 C) F). exact ND.
Qed.

(** The fields of the flat record. *)
Lemma flat_find x p : clean x -> dotless p ->
  find (join p) (named (leaves x)) = match get p x with Some v => if is_record v then None else Some v | None => None end.
Proof.
  intros C D.
  assert (K : forall v, In (join p, v) (named (leaves x)) <-> get p x = Some v /\ is_record v = false).
  { intros v. unfold named. rewrite in_map_iff. split.
    - intros ([q u] & E & Q). cbn in E. injection E as E ->. pose proof (leaves_dotless x C _ _ Q) as DQ.
      apply join_inj in E; auto. subst q. apply leaves_spec in Q; tauto.
    - intros [G R]. exists (p, v). split; [reflexivity|]. apply leaves_spec; [exact C|]. split; [apply D | auto]. }
  destruct (find (join p) (named (leaves x))) as [v|] eqn:E.
  - apply find_In, K in E as [-> ->]. reflexivity.
  - destruct (get p x) as [v|]; [|reflexivity]. destruct (is_record v) eqn:R; [reflexivity|].
    exfalso. apply find_None in E. apply E. apply (in_map fst _ (join p, v)). apply K. auto.
Qed.

(** ** The configuration. *)
Definition merged (files : list fields) : fields := fold_left (fun acc f => merge true f acc) files [].
Lemma merged_snoc files f : merged (files ++ [f]) = merge true f (merged files).
Proof. unfold merged. now rewrite fold_left_app. Qed.
Lemma merge_record l s d : DRecord (merge l s d) = merge_val l (DRecord s) (Some (DRecord d)) max_recursion.
Proof. unfold merge. rewrite merge_val_record. reflexivity. Qed.

Fixpoint total (files : list fields) : N := match files with [] => 0 | f :: r => sections (DRecord f) + total r end.
Lemma total_app xs ys : total (xs ++ ys) = total xs + total ys.
Proof. induction xs; cbn [app total]; lia. Qed.

Definition good (files : list fields) : Prop := Forall (fun f => clean (DRecord f)) files /\ total files < 100.
Lemma good_snoc files f : good (files ++ [f]) -> good files /\ clean (DRecord f) /\ sections (DRecord f) < 100.
Proof.
  intros [H T]. rewrite total_app in T. cbn [total] in T. apply Forall_app in H as [H1 H2]. inversion H2; subst.
  split; [split; [assumption | lia]|]. split; [assumption | lia].
Qed.
Lemma merged_good files : good files -> clean (DRecord (merged files)) /\ sections (DRecord (merged files)) <= total files.
Proof.
  induction files as [|f files IH] using rev_ind; intros G; [split; [split; [constructor | exact I] | cbn; lia]|].
  destruct (good_snoc _ _ G) as (G' & C & S). destruct (IH G') as [IC IS].
  rewrite merged_snoc, merge_record, total_app. cbn [total].
  assert (O : forall d, Some (DRecord (merged files)) = Some d -> clean d) by (intros d E; injection E as <-; exact IC).
  split; [now apply merge_clean|].
  pose proof (merge_weight true _ C (Some (DRecord (merged files))) max_recursion O) as W.
  cbn [osections] in W. rewrite merge_val_record in *. unfold weight in W. cbn [is_record] in W. lia.
Qed.

Lemma merged_get files f p : good (files ++ [f]) ->
  match reach p (DRecord f) with
  | At v => if is_record v then exists g, get p (DRecord (merged (files ++ [f]))) = Some (DRecord g)
            else get p (DRecord (merged (files ++ [f]))) = Some (over true v (get p (DRecord (merged files))))
  | Blocked => get p (DRecord (merged (files ++ [f]))) = None
  | Missing => get p (DRecord (merged (files ++ [f]))) = get p (DRecord (merged files))
  end.
Proof.
  intros G. destruct (good_snoc _ _ G) as (_ & C & S). rewrite merged_snoc, merge_record.
  exact (merge_get true p (DRecord f) (Some (DRecord (merged files))) max_recursion C (sections_fit _ _ S)).
Qed.

Definition missing (p : list name) (f : fields) : Prop := reach p (DRecord f) = Missing.

Lemma merged_after before after p : good (before ++ after) -> Forall (missing p) after ->
  get p (DRecord (merged (before ++ after))) = get p (DRecord (merged before)).
Proof.
  induction after as [|f after IH] using rev_ind; intros G F; [now rewrite app_nil_r|].
  apply Forall_app in F as [F1 F2]. inversion F2 as [|? ? Hf _]; subst.
  rewrite app_assoc in *. pose proof (merged_get _ _ p G) as H. unfold missing in Hf. rewrite Hf in H. rewrite H.
  apply IH; [|exact F1]. now apply good_snoc in G.
Qed.
Lemma merged_missing files p : p <> [] -> good files -> Forall (missing p) files -> get p (DRecord (merged files)) = None.
Proof. intros N0 G F. pose proof (merged_after [] files p G F) as E. cbn [app] in E. rewrite E. destruct p; [contradiction | reflexivity]. Qed.

(** The lists that the files give for a path. *)
Fixpoint lists_at (p : list name) (files : list fields) : list (list data) :=
  match files with
  | [] => []
  | f :: r => match reach p (DRecord f) with At (DList ys) => [ys] | _ => [] end ++ lists_at p r
  end.
Lemma lists_at_app p xs ys : lists_at p (xs ++ ys) = lists_at p xs ++ lists_at p ys.
Proof. induction xs as [|f xs IH]; [reflexivity|]. cbn [app lists_at]. now rewrite IH, app_assoc. Qed.
Lemma merged_lists files p : p <> [] -> good files ->
  Forall (fun f => missing p f \/ exists ys, reach p (DRecord f) = At (DList ys)) files ->
  get p (DRecord (merged files)) = match lists_at p files with [] => None | _ => Some (DList (concat (lists_at p files))) end.
Proof.
  intros N0. induction files as [|f files IH] using rev_ind; intros G F; [destruct p; [contradiction | reflexivity]|].
  apply Forall_app in F as [F1 F2]. inversion F2 as [|? ? Hf _]; subst.
  pose proof (merged_get _ _ p G) as H. destruct (good_snoc _ _ G) as (G' & _ & _). specialize (IH G' F1).
  rewrite lists_at_app. cbn [lists_at]. unfold missing in Hf. destruct Hf as [Hf|[ys Hf]]; rewrite Hf in *.
  - rewrite app_nil_r, H, IH. reflexivity.
  - cbn [is_record] in H. rewrite H, IH. cbn [app]. rewrite concat_app. cbn [concat]. rewrite app_nil_r.
    destruct (lists_at p files) as [|x xs]; cbn; reflexivity.
Qed.

(** ** Options by their names. *)
Definition caf : name := [99; 97; 102].
Lemma starts_with_app k p : starts_with k p = true <-> exists r, k = p ++ r.
Proof.
  revert k. induction p as [|a p IH]; intros k; [destruct k; cbn; split; eauto|].
  destruct k as [|b k]; cbn; [split; [discriminate | intros [r E]; discriminate]|].
  rewrite andb_true_iff, N.eqb_eq, IH. split.
  - intros [-> [r ->]]. eauto.
  - intros [r E]. injection E as -> ->. eauto.
Qed.
Lemma strip_join p : dotless p ->
  strip_caf (join p) = match p with k :: (_ :: _) as q => if name_eqb k caf then join (tl p) else join p | _ => join p end.
Proof.
  intros [N0 F]. unfold strip_caf. destruct (starts_with (join p) caf_prefix) eqn:E.
  - apply starts_with_app in E as [r E]. destruct p as [|k [|k1 q]]; [contradiction| |].
    + cbn in E. exfalso. inversion F as [|? ? H _]; subst. apply H. cbn. auto.
    + rewrite (join_cons k) in * by discriminate. change (caf_prefix ++ r) with (caf ++ dot :: r) in E.
      apply app_dot_inj in E; [|inversion F; assumption|intros H; cbn in H; decompose [or] H; try discriminate; contradiction].
      destruct E as [-> E]. rewrite name_eqb_refl. reflexivity.
  - destruct p as [|k [|k1 q]]; [reflexivity | reflexivity |]. destruct (name_eqb k caf) eqn:K; [|reflexivity].
    apply name_eqb_spec in K as ->. rewrite join_cons in E by discriminate. change (caf ++ dot :: join (k1 :: q)) with (caf_prefix ++ join (k1 :: q)) in E.
    assert (T : starts_with (caf_prefix ++ join (k1 :: q)) caf_prefix = true) by (apply starts_with_app; eauto). rewrite T in E. discriminate.
Qed.

Lemma caf_dotless : ~ In dot caf.
Proof. intros H; cbn in H; decompose [or] H; try discriminate; contradiction. Qed.
Lemma strip_eq p q : dotless p -> dotless q -> hd [] q <> caf -> strip_caf (join p) = join q -> p = q \/ p = caf :: q.
Proof.
  intros Dp Dq H E. rewrite strip_join in E by exact Dp.
  destruct p as [|k [|k1 p]].
  - left. apply join_inj; assumption.
  - left. apply join_inj; assumption.
  - destruct (name_eqb k caf) eqn:K; [|left; apply join_inj; assumption].
    apply name_eqb_spec in K as ->. right. f_equal. apply join_inj; [|assumption|exact E].
    destruct Dp as [_ F]. inversion F; subst. split; [discriminate | assumption].
Qed.

Definition visible (o : option data) : option data :=
  match o with Some DNone => None | Some v => if is_record v then None else Some v | None => None end.
Lemma visible_some o v : visible o = Some v <-> o = Some v /\ is_record v = false /\ v <> DNone.
Proof.
  destruct o as [w|]; [|cbn; split; [discriminate | intros [E _]; discriminate]].
  destruct w; cbn; (split; [intros E; try discriminate; injection E as <-; repeat split; discriminate
                           | intros (E & R & D); injection E as <-; try reflexivity; try discriminate; contradiction]).
Qed.

Lemma config_In files k v : good files ->
  In (k, v) (config files) <->
  exists p, dotless p /\ strip_caf (join p) = k /\ visible (get p (DRecord (merged files))) = Some v.
Proof.
  intros G. destruct (merged_good files G) as [C S]. destruct G as [_ T]. unfold config. fold (merged files). unfold flatten.
  rewrite flatten_leaves; [|exact C|apply sections_fit; unfold max_recursion; lia].
  rewrite filter_In. cbn [snd]. unfold named. rewrite map_map, in_map_iff. cbn [fst snd]. split.
  - intros [([p u] & E & L) NN]. cbn in E. injection E as <- ->. exists p.
    split; [now apply (leaves_dotless _ C p v)|]. split; [reflexivity|].
    apply leaves_spec in L; [|exact C]. destruct L as (_ & -> & R). apply visible_some. repeat split; auto.
    intros ->. discriminate.
  - intros (p & D & <- & V). apply visible_some in V as (Gp & R & NN). split; [|destruct v; try reflexivity; contradiction].
    exists (p, v). split; [reflexivity|]. apply leaves_spec; [exact C|]. split; [apply D | auto].
Qed.

Lemma find_unique k fs v : In (k, v) fs -> (forall w, In (k, w) fs -> w = v) -> find k fs = Some v.
Proof.
  intros H U. destruct (find k fs) as [w|] eqn:E; [now rewrite (U w) by now apply find_In|].
  apply find_None in E. exfalso. apply E. now apply (in_map fst) in H.
Qed.

Lemma config_find files q : good files -> dotless q -> hd [] q <> caf ->
  visible (get (caf :: q) (DRecord (merged files))) = None ->
  find (join q) (config files) = visible (get q (DRecord (merged files))).
Proof.
  intros G D H V.
  assert (U : forall w, In (join q, w) (config files) -> visible (get q (DRecord (merged files))) = Some w).
  { intros w I1. apply config_In in I1 as (p & Dp & E & Vp); [|exact G].
    destruct (strip_eq _ _ Dp D H E) as [->| ->]; [exact Vp | congruence]. }
  destruct (visible (get q (DRecord (merged files)))) as [v|] eqn:E.
  - apply find_unique; [|intros w I1; apply U in I1; congruence].
    apply config_In; [exact G|]. exists q. split; [exact D|]. split; [|exact E].
    rewrite strip_join by exact D. destruct q as [|k [|k1 q]]; [reflexivity|reflexivity|].
    cbn in H. now rewrite (name_eqb_neq k caf H).
  - destruct (find (join q) (config files)) as [w|] eqn:W; [|reflexivity]. apply find_In, U in W. discriminate.
Qed.
Lemma config_find_caf files q : good files -> dotless q -> hd [] q <> caf ->
  visible (get q (DRecord (merged files))) = None ->
  find (join q) (config files) = visible (get (caf :: q) (DRecord (merged files))).
Proof.
  intros G D H V.
  assert (U : forall w, In (join q, w) (config files) -> visible (get (caf :: q) (DRecord (merged files))) = Some w).
  { intros w I1. apply config_In in I1 as (p & Dp & E & Vp); [|exact G].
    destruct (strip_eq _ _ Dp D H E) as [->| ->]; [congruence | exact Vp]. }
  destruct (visible (get (caf :: q) (DRecord (merged files)))) as [v|] eqn:E.
  - apply find_unique; [|intros w I1; apply U in I1; congruence].
    assert (Dc : dotless (caf :: q)) by (split; [discriminate | constructor; [exact caf_dotless | apply D]]).
    apply config_In; [exact G|]. exists (caf :: q). split; [exact Dc|]. split; [|exact E].
    rewrite strip_join by exact Dc. destruct D as [N0 _]. destruct q; [contradiction|]. now rewrite name_eqb_refl.
  - destruct (find (join q) (config files)) as [w|] eqn:W; [|reflexivity]. apply find_In, U in W. discriminate.
Qed.
