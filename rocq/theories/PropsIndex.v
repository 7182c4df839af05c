(** C08, C09 and C10: keys, numeric indexes and nil lookups.

    A history [h] of an index lists the appended values ([None] is nil) with
    their positions. [column [] h] is the column it describes: one cell per row,
    where skipped rows are gaps; it is [None] if a position lies before the end
    of the column. *)
From Coq Require Import List ZArith NArith Lia Bool ZifyBool ZifyNat ZifyN.
From Verif Require Import WordProofs OperatorModel PropsBitmapOps BitmapOps CoderModel CoderProofs MultiLevelProofs PropsCoder
  OrderModel OrderProofs ValueIndexModel ValueIndexProofs ArithIndexModel ArithIndexProofs.
Import ListNotations.
Open Scope N_scope.

(** * C08: keys preserve the order *)

(** Signed integers: the key order is the order of the values. *)
Theorem C08_signed : forall x y, (- 2 ^ 63 <= x < 2 ^ 63)%Z -> (- 2 ^ 63 <= y < 2 ^ 63)%Z ->
  order_signed x < 2 ^ 64 /\
  (order_signed x < order_signed y <-> (x < y)%Z) /\ (order_signed x = order_signed y <-> x = y).
Proof.
  intros x y X Y. pose proof (order_signed_value x X). pose proof (order_signed_value y Y).
  split; [apply order_signed_bound|]. lia.
Qed.
Example C08_signed_example : order_signed (-1) < order_signed 0 /\ order_signed (- 2 ^ 63) = 0.
Proof. split; reflexivity. Qed.

(** Doubles other than NaN have a key, and the keys are monotone; they are
    strictly so except between two subnormal numbers of the same sign. Positive
    and negative zero share their key. *)
Theorem C08_double : forall p q, p < 2 ^ 64 -> q < 2 ^ 64 -> d_nan p = false -> d_nan q = false ->
  exists a b, order_double p = Some a /\ order_double q = Some b /\ a < 2 ^ 64 /\
  ((d_value p <= d_value q)%Z -> a <= b) /\
  ((d_value p < d_value q)%Z -> d_subnormal p && d_subnormal q && Bool.eqb (d_neg p) (d_neg q) = false -> a < b).
Proof.
  intros p q P Q NP NQ. destruct (order_double_some p P NP) as (a & EA & BA). destruct (order_double_some q Q NQ) as (b & EB & _).
  exists a, b. split; auto. split; auto. split; auto. now apply order_double_mono.
Qed.
(** -1.5 and 2^-1074. *)
Example C08_double_example : d_nan 0xbff8000000000000 = false /\ d_nan 1 = false /\
  (d_value 0xbff8000000000000 < d_value 1)%Z /\ d_subnormal 0xbff8000000000000 = false.
Proof. repeat split. Qed.

(** Subnormal numbers of the same sign share one key. *)
Theorem C08_subnormal_refuted : exists p q, p < 2 ^ 64 /\ q < 2 ^ 64 /\ (d_value p < d_value q)%Z /\
  order_double p = order_double q /\ order_double p <> None.
Proof. exists 1, 2. repeat split. discriminate. Qed.

(** Binning non-negative numbers of nanoseconds rounds down to buckets. *)
Theorem C08_decimal_bin : forall bucket x, 0 < bucket -> (0 <= x < 2 ^ 63)%Z ->
  (Z.of_N bucket * decimal_bin bucket x <= x < Z.of_N bucket * (decimal_bin bucket x + 1))%Z.
Proof.
  intros bucket x B X. rewrite decimal_bin_nonneg; [|lia|unfold i64; lia|lia].
  pose proof (Z.div_mod x (Z.of_N bucket) ltac:(lia)). pose proof (Z.mod_pos_bound x (Z.of_N bucket) ltac:(lia)). lia.
Qed.
Example C08_decimal_bin_example : decimal_bin second 2500000000 = 2%Z.
Proof. reflexivity. Qed.

(** Negative numbers of nanoseconds are binned as if they were unsigned and end
    up above all positive ones. *)
Theorem C08_decimal_bin_refuted : exists x y, (- 2 ^ 63 <= x)%Z /\ (x < y < 2 ^ 63)%Z /\
  (decimal_bin second y < decimal_bin second x)%Z.
Proof. exists (-1)%Z, (2 ^ 62)%Z. repeat split; reflexivity || discriminate. Qed.

(** Binning reals is monotone, and the keys of the bins are strictly so. *)
Theorem C08_precision_bin : forall p q, p < 2 ^ 64 -> q < 2 ^ 64 -> d_nan p = false -> d_nan q = false ->
  exists a b k l, precision_bin p = Some a /\ precision_bin q = Some b /\ real_key p = Some k /\ real_key q = Some l /\
  ((d_value p <= d_value q)%Z -> (a <= b)%Z) /\ ((a < b)%Z -> k < l).
Proof.
  intros p q P Q NP NQ. pose proof (precision_bin_by p P NP) as EP. pose proof (precision_bin_by q Q NQ) as EQ.
  match type of EP with _ = Some ?u => set (a := u) in * end. match type of EQ with _ = Some ?u => set (b := u) in * end.
  pose proof (precision_bin_bound p a P EP) as BP. pose proof (precision_bin_bound q b Q EQ) as BQ.
  change integral_max with 10000000000%Z in *.
  destruct (int_key_order a ltac:(lia)) as (k & Ka & Ka'). destruct (int_key_order b ltac:(lia)) as (l & Kb & Kb').
  exists a, b, (int_key a), (int_key b). unfold real_key, real_shift. rewrite EP, EQ, Ka, Kb. cbn [option_map]. rewrite Ka', Kb'.
  repeat split; auto.
  - intros H. eapply (precision_bin_mono p q); eauto.
  - intros H. apply int_key_mono; auto; lia.
Qed.
(** 1.5 and 1e300. *)
Example C08_precision_bin_example :
  precision_bin 0x3ff8000000000000 = Some 2%Z /\ precision_bin 0x7e37e43c8800759c = Some (10 ^ 10)%Z.
Proof. split; reflexivity. Qed.

(** * C09: numeric indexes *)

(** The comparison of two numbers. *)
Definition holdsZ (op : relop) (v x : Z) : bool :=
  match op with
  | op_eq => Z.eqb v x
  | op_ne => negb (Z.eqb v x)
  | op_lt => Z.ltb v x
  | op_le => Z.leb v x
  | op_gt => Z.ltb x v
  | op_ge => Z.leb x v
  | _ => false
  end.

(** A cell satisfies a predicate on values; nil differs from every value. *)
Definition cell_matches {V} (op : relop) (truth : V -> bool) (c : cell V) : bool :=
  match c with Val v => truth v | Nil => match op with op_ne => true | _ => false end | Gap => false end.

(** A cell with a value is a member of a list ([None] is nil). *)
Definition cell_in {V X} (eq : V -> X -> bool) (xs : list (option X)) (c : cell V) : bool :=
  match c with Val v => existsb (fun x => match x with Some x => eq v x | None => false end) xs | _ => false end.
Definition cell_not_in {V X} (eq : V -> X -> bool) (xs : list (option X)) (c : cell V) : bool :=
  match c with Val v => negb (existsb (fun x => match x with Some x => eq v x | None => false end) xs) | _ => false end.

(** All values appended by a history. *)
Definition values_of {V} (h : list (option V * nat)) : list V :=
  flat_map (fun e => match fst e with Some v => [v] | None => [] end) h.

Lemma values_of_in : forall {V} (h : list (option V * nat)) v pos, In (Some v, pos) h -> In v (values_of h).
Proof. intros V h v pos H. apply in_flat_map. exists (Some v, pos). split; auto. now left. Qed.

Lemma column_values : forall {V} h (col col' : list (cell V)), column col h = Some col' ->
  forall v, In (Val v) col' -> In (Val v) col \/ In v (values_of h).
Proof.
  intros V. induction h as [|[x pos] h IH]; intros col col'; cbn [column].
  - intros E. injection E as <-. auto.
  - unfold write. destruct (pos <? length col)%nat; [discriminate|]. intros E v I.
    destruct (IH _ _ E v I) as [J|J].
    + rewrite !in_app_iff in J. destruct J as [J|[J|J]]; auto.
      * apply repeat_spec in J. discriminate.
      * destruct J as [J|[]]. destruct x as [w|]; [|discriminate]. injection J as ->. right. now left.
    + right. cbn [values_of flat_map]. apply in_app_iff. now right.
Qed.

Section Generic.
  Context {B : Type} (ops : bitmap_ops B) (content : B -> list bool) (laws : bitmap_laws ops content).
  Context {V : Type} (key : V -> option N) (qkey : relop -> V -> option N) (b : list N).

  Lemma numeric_run : forall h, well_defined b = true ->
    (forall v, In v (values_of h) -> fits key b v) ->
    exists s, ml_new_range ops b = Some s /\
    match column [] h with
    | None => vi_run ops (numeric_impl ops key qkey) (vi_new ops s) h = None
    | Some col => exists i, vi_run ops (numeric_impl ops key qkey) (vi_new ops s) h = Some i /\
        VInv content (NInv ops key b) i col
    end.
  Proof.
    intros h W F. unfold ml_new_range, ml_new. rewrite W. eexists. split; [reflexivity|].
    set (s := {| mbase := _; mcoders := _ |}).
    apply (run_spec ops content laws (numeric_impl ops key qkey) (NInv ops key b)).
    - apply (VInv_new ops content laws). apply (reach_new (multi_range_ops ops b)). cbn. unfold ml_new_range, ml_new. now rewrite W.
    - intros v pos H. apply (numeric_accepts ops content laws); auto. apply F. eapply values_of_in; eauto.
  Qed.

  (** Lookups in terms of keys. *)
  Lemma numeric_lookup : forall i col op x q, well_defined b = true -> VInv content (NInv ops key b) i col ->
    In op six -> qkey op x = Some q -> q < fold_right N.mul 1 b ->
    exists r, vi_lookup ops (numeric_impl ops key qkey) i op (Some x) = Some r /\
      content r = map (cell_matches op (fun v => holds op (keyd key v) q)) col.
  Proof.
    intros i col op x q W J O K L.
    destruct (lookup_spec ops content laws (numeric_impl ops key qkey) (NInv ops key b) i col op x _ J
      (numeric_answers ops content laws key qkey b W op x q O K L)) as (r & E & C).
    exists r. auto.
  Qed.

  Lemma numeric_list : forall i col xs (q : V -> N), well_defined b = true -> VInv content (NInv ops key b) i col ->
    (forall x, In (Some x) xs -> qkey op_eq x = Some (q x) /\ q x < fold_right N.mul 1 b) ->
    exists r r', vi_lookup_list ops (numeric_impl ops key qkey) i op_in xs = Some r /\
      vi_lookup_list ops (numeric_impl ops key qkey) i op_not_in xs = Some r' /\
      content r = map (cell_in (fun v x => keyd key v =? q x) xs) col /\
      content r' = map (cell_not_in (fun v x => keyd key v =? q x) xs) col.
  Proof.
    intros i col xs q W J Q.
    destruct (lookup_list_spec ops content laws (numeric_impl ops key qkey) (NInv ops key b) i col
      (fun x v => keyd key v =? q x) xs J) as (r & r' & E & E' & C & C').
    - intros x H. destruct (Q x H) as [Q1 Q2].
      apply (numeric_answers ops content laws key qkey b W op_eq x (q x)); auto. cbn. auto.
    - exists r, r'. split; auto. split; auto. rewrite C, C'. split; apply map_ext; intros [| |v]; reflexivity.
  Qed.
End Generic.

Lemma default_base_wf : well_defined default_base = true.
Proof. reflexivity. Qed.
Lemma default_base_product : fold_right N.mul 1 default_base = 2 ^ 66.
Proof. reflexivity. Qed.

(** An index answers comparisons of column [col] and an operand exactly. *)
Definition exact_scalar {B S V} (ops : bitmap_ops B) (content : B -> list bool) (impl : index_impl B S V V)
  (i : vindex B S) (col : list (cell V)) (truth : relop -> V -> V -> bool) (ops_ok : list relop) (ok : V -> Prop) : Prop :=
  forall op x, In op ops_ok -> ok x -> exists r, vi_lookup ops impl i op (Some x) = Some r /\
    content r = map (cell_matches op (fun v => truth op v x)) col.
(** It answers membership in lists, as far as rows with values are concerned, exactly. *)
Definition exact_list {B S V} (ops : bitmap_ops B) (content : B -> list bool) (impl : index_impl B S V V)
  (i : vindex B S) (col : list (cell V)) (truth : relop -> V -> V -> bool) (ok : V -> Prop) : Prop :=
  forall xs, (forall x, In (Some x) xs -> ok x) ->
  exists r r', vi_lookup_list ops impl i op_in xs = Some r /\ vi_lookup_list ops impl i op_not_in xs = Some r' /\
    content r = map (cell_in (truth op_eq) xs) col /\ content r' = map (cell_not_in (truth op_eq) xs) col.

Lemma map_ext_cells : forall {V} (col : list (cell V)) (f g : cell V -> bool),
  f Gap = g Gap -> f Nil = g Nil -> (forall v, In (Val v) col -> f (Val v) = g (Val v)) -> map f col = map g col.
Proof. intros V col f g G N H. apply map_ext_in. intros [| |v] I; auto. Qed.

Lemma existsb_ext_in : forall {A} (f g : A -> bool) l, (forall x, In x l -> f x = g x) -> existsb f l = existsb g l.
Proof. induction l; cbn; intros; auto. rewrite H, IHl; auto. Qed.

(** An exact index from an order embedding [z] of values into numbers. *)
Lemma numeric_exact : forall {B} (ops : bitmap_ops B) content, bitmap_laws ops content ->
  forall {V} (key : V -> option N) (qkey : relop -> V -> option N) (z : V -> Z) (ok : V -> Prop) b,
  well_defined b = true ->
  (forall op v, qkey op v = key v) ->
  (forall v, ok v -> exists k, key v = Some k /\ k < fold_right N.mul 1 b) ->
  (forall v w k l, ok v -> ok w -> key v = Some k -> key w = Some l -> (k < l <-> (z v < z w)%Z) /\ (k = l <-> z v = z w)) ->
  forall h, (forall v, In v (values_of h) -> ok v) ->
  exists s, ml_new_range ops b = Some s /\
  match column [] h with
  | None => vi_run ops (numeric_impl ops key qkey) (vi_new ops s) h = None
  | Some col => exists i, vi_run ops (numeric_impl ops key qkey) (vi_new ops s) h = Some i /\
      exact_scalar ops content (numeric_impl ops key qkey) i col (fun op v x => holdsZ op (z v) (z x)) six ok /\
      exact_list ops content (numeric_impl ops key qkey) i col (fun op v x => holdsZ op (z v) (z x)) ok
  end.
Proof.
  intros B ops content laws V key qkey z ok b W QK K O h F.
  destruct (numeric_run ops content laws key qkey b h W) as (s & E & R).
  { intros v Hv. destruct (K v (F v Hv)) as (k & Kv & L). exists k. auto. }
  exists s. split; auto. destruct (column [] h) as [col|] eqn:EC; auto.
  destruct R as (i & ER & J). exists i. split; auto.
  assert (OK : forall v, In (Val v) col -> ok v).
  { intros v Hv. destruct (column_values h [] col EC v Hv) as [[]|Hv']. auto. }
  assert (H : forall op v x, In op six -> ok v -> ok x -> holds op (keyd key v) (keyd key x) = holdsZ op (z v) (z x)).
  { intros op v x OP V1 X1. destruct (K v V1) as (k & Kv & _). destruct (K x X1) as (l & Kx & _).
    unfold keyd. rewrite Kv, Kx. pose proof (O v x k l V1 X1 Kv Kx). pose proof (O x v l k X1 V1 Kx Kv).
    cbn in OP. destruct OP as [<-|[<-|[<-|[<-|[<-|[<-|[]]]]]]]; cbn [holds holdsZ]; lia. }
  split.
  - intros op x OP X. destruct (K x X) as (q & Kx & L).
    destruct (numeric_lookup ops content laws key qkey b i col op x q W J OP) as (r & D & C); auto.
    { now rewrite QK. }
    exists r. split; auto. rewrite C. apply map_ext_cells; auto.
    intros v Hv. cbn [cell_matches]. rewrite <- (H op v x OP (OK v Hv) X). unfold keyd at 3. now rewrite Kx.
  - intros xs X.
    destruct (numeric_list ops content laws key qkey b i col xs (keyd key) W J) as (r & r' & D & D' & C & C').
    { intros x Hx. destruct (K x (X x Hx)) as (q & Kx & L). unfold keyd. rewrite QK, Kx. auto. }
    exists r, r'. split; auto. split; auto. rewrite C, C'.
    assert (EX : forall v, In (Val v) col ->
      existsb (fun x => match x with Some x => keyd key v =? keyd key x | None => false end) xs =
      existsb (fun x => match x with Some x => holdsZ op_eq (z v) (z x) | None => false end) xs).
    { intros v Hv. apply existsb_ext_in. intros [x|] Hx; auto. apply (H op_eq v x); auto. cbn; auto. }
    split; apply map_ext_cells; auto; intros v Hv; cbn [cell_in cell_not_in]; now rewrite EX.
Qed.

(** Counts (64-bit unsigned numbers). *)
Theorem C09_count : forall B (ops : bitmap_ops B) content, bitmap_laws ops content ->
  forall h, (forall v, In v (values_of h) -> v < 2 ^ 64) ->
  exists s, ml_new_range ops default_base = Some s /\
  match column [] h with
  | None => vi_run ops (numeric_impl ops count_key count_qkey) (vi_new ops s) h = None
  | Some col => exists i, vi_run ops (numeric_impl ops count_key count_qkey) (vi_new ops s) h = Some i /\
      exact_scalar ops content (numeric_impl ops count_key count_qkey) i col
        (fun op v x => holdsZ op (Z.of_N v) (Z.of_N x)) six (fun v => v < 2 ^ 64) /\
      exact_list ops content (numeric_impl ops count_key count_qkey) i col
        (fun op v x => holdsZ op (Z.of_N v) (Z.of_N x)) (fun v => v < 2 ^ 64)
  end.
Proof.
  intros B ops content laws h F.
  apply (numeric_exact ops content laws count_key count_qkey Z.of_N (fun v => v < 2 ^ 64) default_base); auto.
  - intros v V. exists v. split; auto. rewrite default_base_product. change (2 ^ 66) with (4 * 2 ^ 64). lia.
  - intros v w k l _ _ EV EW. injection EV as <-. injection EW as <-. lia.
Qed.
Example C09_count_example : exists col, column [] [(Some 5, 0%nat); (None, 1%nat); (Some (2 ^ 64 - 1), 4%nat)] = Some col /\
  length col = 5%nat.
Proof. eexists. split; reflexivity. Qed.

(** Signed integers. *)
Theorem C09_integer : forall B (ops : bitmap_ops B) content, bitmap_laws ops content ->
  forall h, (forall v, In v (values_of h) -> (- 2 ^ 63 <= v < 2 ^ 63)%Z) ->
  exists s, ml_new_range ops default_base = Some s /\
  match column [] h with
  | None => vi_run ops (numeric_impl ops integer_key integer_qkey) (vi_new ops s) h = None
  | Some col => exists i, vi_run ops (numeric_impl ops integer_key integer_qkey) (vi_new ops s) h = Some i /\
      exact_scalar ops content (numeric_impl ops integer_key integer_qkey) i col holdsZ six
        (fun v => (- 2 ^ 63 <= v < 2 ^ 63)%Z) /\
      exact_list ops content (numeric_impl ops integer_key integer_qkey) i col holdsZ
        (fun v => (- 2 ^ 63 <= v < 2 ^ 63)%Z)
  end.
Proof.
  intros B ops content laws h F.
  apply (numeric_exact ops content laws integer_key integer_qkey (fun z => z) (fun v => (- 2 ^ 63 <= v < 2 ^ 63)%Z) default_base); auto.
  - intros v V. exists (order_signed v). split; auto. rewrite default_base_product.
    pose proof (order_signed_bound v). change (2 ^ 66) with (4 * 2 ^ 64). lia.
  - intros v w k l V W EV EW. injection EV as <-. injection EW as <-.
    destruct (C08_signed v w V W) as (_ & A & A'). auto.
Qed.
Example C09_integer_example : forall v, In v (values_of [(Some (-5)%Z, 0%nat); (Some 7%Z, 3%nat)]) -> (- 2 ^ 63 <= v < 2 ^ 63)%Z.
Proof. cbn. intros v [<-|[<-|[]]]; lia. Qed.

(** Booleans support [==] and [!=]. *)
Theorem C09_bool : forall B (ops : bitmap_ops B) content, bitmap_laws ops content -> forall h,
  match column [] h with
  | None => vi_run ops (bool_impl ops) (vi_new ops (b_empty ops)) h = None
  | Some col => exists i, vi_run ops (bool_impl ops) (vi_new ops (b_empty ops)) h = Some i /\
      exact_scalar ops content (bool_impl ops) i col
        (fun op v x => match op with op_eq => Bool.eqb v x | _ => negb (Bool.eqb v x) end) [op_eq; op_ne] (fun _ => True) /\
      exact_list ops content (bool_impl ops) i col (fun _ v x => Bool.eqb v x) (fun _ => True)
  end.
Proof.
  intros B ops content laws h.
  pose proof (run_spec ops content laws (bool_impl ops) (BInv content) h (vi_new ops (b_empty ops)) []) as R.
  destruct (column [] h) as [col|].
  - destruct R as (i & E & J).
    + apply (VInv_new ops content laws). apply (law_empty _ _ laws).
    + intros v pos _. now apply bool_accepts.
    + exists i. split; auto. split.
      * intros op x O _.
        assert (O' : op = op_eq \/ op = op_ne) by (cbn in O; intuition auto).
        destruct (lookup_spec ops content laws (bool_impl ops) (BInv content) i col op x _ J (bool_answers ops content laws op x O'))
          as (r & D & C).
        exists r. split; auto. rewrite C. apply map_ext. destruct O' as [-> | ->]; intros [| |v]; reflexivity.
      * intros xs _.
        destruct (lookup_list_spec ops content laws (bool_impl ops) (BInv content) i col (fun x v => Bool.eqb v x) xs J)
          as (r & r' & D & D' & C & C').
        { intros y _. apply (bool_answers ops content laws op_eq y). auto. }
        exists r, r'. split; auto. split; auto. rewrite C, C'. split; apply map_ext; intros [| |v]; reflexivity.
  - apply R.
    + apply (VInv_new ops content laws). apply (law_empty _ _ laws).
    + intros v pos _. now apply bool_accepts.
Qed.
Example C09_bool_example : column [] [(Some true, 1%nat); (Some false, 0%nat)] = None /\
  column [] [(Some true, 1%nat); (None, 2%nat)] = Some [Gap; Val true; Nil].
Proof. split; reflexivity. Qed.

(** Lossy indexes: no false negatives for the listed operators. *)
Definition covers {V} (col : list (cell V)) (truth : V -> bool) (bits : list bool) : Prop :=
  length bits = length col /\
  (forall p v, nth_error col p = Some (Val v) -> truth v = true -> nth_error bits p = Some true) /\
  (forall p, nth_error col p = Some Nil \/ nth_error col p = Some Gap -> nth_error bits p = Some false).

Definition five : list relop := [op_eq; op_lt; op_le; op_gt; op_ge].

Lemma covers_map : forall {V} (col : list (cell V)) (truth key : V -> bool),
  (forall v, In (Val v) col -> truth v = true -> key v = true) ->
  forall f : cell V -> bool, (forall c, f c = match c with Val v => key v | _ => false end) ->
  covers col truth (map f col).
Proof.
  intros V col truth key H f F. repeat split.
  - apply map_length.
  - intros p v E T. rewrite nth_error_map, E. cbn. rewrite F. f_equal. apply H; auto. now apply nth_error_In in E.
  - intros p [E|E]; rewrite nth_error_map, E; cbn; now rewrite F.
Qed.

Lemma numeric_sound : forall {B} (ops : bitmap_ops B) content, bitmap_laws ops content ->
  forall {V} (key : V -> option N) (qkey : relop -> V -> option N) (z : V -> Z) (ok : V -> Prop) b,
  well_defined b = true ->
  (forall v, ok v -> exists k, key v = Some k /\ k < fold_right N.mul 1 b) ->
  (forall op x, In op five -> ok x -> exists q, qkey op x = Some q /\ q < fold_right N.mul 1 b /\
    forall v k, ok v -> key v = Some k -> holdsZ op (z v) (z x) = true -> holds op k q = true) ->
  forall h, (forall v, In v (values_of h) -> ok v) ->
  exists s, ml_new_range ops b = Some s /\
  match column [] h with
  | None => vi_run ops (numeric_impl ops key qkey) (vi_new ops s) h = None
  | Some col => exists i, vi_run ops (numeric_impl ops key qkey) (vi_new ops s) h = Some i /\
      (forall op x, In op five -> ok x -> exists r, vi_lookup ops (numeric_impl ops key qkey) i op (Some x) = Some r /\
         covers col (fun v => holdsZ op (z v) (z x)) (content r)) /\
      (forall xs, (forall x, In (Some x) xs -> ok x) ->
         exists r, vi_lookup_list ops (numeric_impl ops key qkey) i op_in xs = Some r /\
         covers col (fun v => existsb (fun x => match x with Some x => (z v =? z x)%Z | None => false end) xs) (content r))
  end.
Proof.
  intros B ops content laws V key qkey z ok b W K Q h F.
  destruct (numeric_run ops content laws key qkey b h W) as (s & E & R).
  { intros v Hv. destruct (K v (F v Hv)) as (k & Kv & L). exists k. auto. }
  exists s. split; auto. destruct (column [] h) as [col|] eqn:EC; auto.
  destruct R as (i & ER & J). exists i. split; auto.
  assert (OK : forall v, In (Val v) col -> ok v).
  { intros v Hv. destruct (column_values h [] col EC v Hv) as [[]|Hv']. auto. }
  split.
  - intros op x OP X. destruct (Q op x OP X) as (q & Kx & L & S).
    destruct (numeric_lookup ops content laws key qkey b i col op x q W J) as (r & D & C); auto.
    { cbn in OP |- *. intuition auto. }
    exists r. split; auto. rewrite C. apply (covers_map col _ (fun v => holds op (keyd key v) q)).
    + intros v Hv T. destruct (K v (OK v Hv)) as (k & Kv & _). unfold keyd. rewrite Kv. exact (S v k (OK v Hv) Kv T).
    + intros [| |v]; try reflexivity. cbn [cell_matches]. cbn in OP. destruct op; try reflexivity. clear -OP. intuition discriminate.
  - intros xs X.
    destruct (numeric_list ops content laws key qkey b i col xs (fun x => match qkey op_eq x with Some q => q | None => 0 end) W J)
      as (r & r' & D & D' & C & C').
    { intros x Hx. destruct (Q op_eq x ltac:(cbn; auto) (X x Hx)) as (q & Kx & L & _). rewrite Kx. auto. }
    exists r. split; auto. rewrite C.
    apply (covers_map col _ (fun v => existsb (fun x => match x with Some x => keyd key v =? match qkey op_eq x with Some q => q | None => 0 end | None => false end) xs)).
    + intros v Hv T. apply existsb_exists in T as ([x|] & Hx & T); [|discriminate]. apply existsb_exists. exists (Some x). split; auto.
      destruct (Q op_eq x ltac:(cbn; auto) (X x Hx)) as (q & Kx & L & S). destruct (K v (OK v Hv)) as (k & Kv & _).
      rewrite Kx. unfold keyd. rewrite Kv. exact (S v k (OK v Hv) Kv T).
    + intros [| |v]; reflexivity.
Qed.

(** Times and durations with a non-negative count of nanoseconds: no false
    negatives for [==], [<], [<=], [>], [>=] and [in]. *)
Theorem C09_temporal : forall B (ops : bitmap_ops B) content, bitmap_laws ops content ->
  forall h, (forall v, In v (values_of h) -> (0 <= v < 2 ^ 63)%Z) ->
  exists s, ml_new_range ops default_base = Some s /\
  match column [] h with
  | None => vi_run ops (numeric_impl ops (temporal_key second) (temporal_qkey second)) (vi_new ops s) h = None
  | Some col => exists i,
      vi_run ops (numeric_impl ops (temporal_key second) (temporal_qkey second)) (vi_new ops s) h = Some i /\
      (forall op x, In op five -> (0 <= x < 2 ^ 63)%Z ->
         exists r, vi_lookup ops (numeric_impl ops (temporal_key second) (temporal_qkey second)) i op (Some x) = Some r /\
         covers col (fun v => holdsZ op v x) (content r)) /\
      (forall xs, (forall x, In (Some x) xs -> (0 <= x < 2 ^ 63)%Z) ->
         exists r, vi_lookup_list ops (numeric_impl ops (temporal_key second) (temporal_qkey second)) i op_in xs = Some r /\
         covers col (fun v => existsb (fun x => match x with Some x => (v =? x)%Z | None => false end) xs) (content r))
  end.
Proof.
  intros B ops content laws h F.
  apply (numeric_sound ops content laws (temporal_key second) (temporal_qkey second) (fun z => z)
    (fun v => (0 <= v < 2 ^ 63)%Z) default_base); auto.
  - intros v V. eexists. split; [reflexivity|]. rewrite default_base_product.
    pose proof (order_signed_bound (decimal_bin second v)). change (2 ^ 66) with (4 * 2 ^ 64). lia.
  - intros op x OP X. eexists. split; [reflexivity|]. split.
    { rewrite default_base_product. pose proof (order_signed_bound (adjust op (decimal_bin second x))).
      change (2 ^ 66) with (4 * 2 ^ 64). lia. }
    intros v k V EV. injection EV as <-.
    assert (BD : forall y, (0 <= y < 2 ^ 63)%Z -> decimal_bin second y = (y / 10 ^ 9)%Z /\ (0 <= y / 10 ^ 9 < 10 ^ 10)%Z).
    { intros y Y. rewrite decimal_bin_nonneg; [|reflexivity|unfold i64; lia|lia]. split; auto. change (Z.of_N second) with (10 ^ 9)%Z.
      split; [apply Z.div_pos; lia|]. apply Z.div_lt_upper_bound; [lia|]. eapply Z.lt_trans; [apply Y|]. reflexivity. }
    destruct (BD x X) as [-> BX]. destruct (BD v V) as [-> BV].
    assert (MO : forall a b, (a <= b)%Z -> (a / 10 ^ 9 <= b / 10 ^ 9)%Z) by (intros; apply Z.div_le_mono; lia).
    pose proof (MO v x) as M1. pose proof (MO x v) as M2. clear MO BD.
    assert (EQV : v = x -> (v / 10 ^ 9 = x / 10 ^ 9)%Z) by (intros ->; reflexivity).
    set (bx := (x / 10 ^ 9)%Z) in *. set (bv := (v / 10 ^ 9)%Z) in *. clearbody bx bv.
    pose proof (order_signed_value bv ltac:(unfold i64; lia)) as OV.
    pose proof (order_signed_value (adjust op bx) ltac:(unfold i64; destruct op; cbn [adjust]; lia)) as OX.
    set (ov := order_signed bv) in *. set (ox := order_signed (adjust op bx)) in *. clearbody ov ox.
    cbn in OP. destruct OP as [<-|[<-|[<-|[<-|[<-|[]]]]]]; cbn [holds holdsZ adjust] in *; lia.
Qed.
Example C09_temporal_example : exists col, column [] [(Some 1500000000%Z, 0%nat); (Some 0%Z, 2%nat)] = Some col /\
  holdsZ op_gt 1500000000 1400000000 = true.
Proof. eexists. split; reflexivity. Qed.

(** Reals other than NaN: no false negatives for the same operators. *)
Theorem C09_real : forall B (ops : bitmap_ops B) content, bitmap_laws ops content ->
  forall h, (forall v, In v (values_of h) -> v < 2 ^ 64 /\ d_nan v = false) ->
  exists s, ml_new_range ops default_base = Some s /\
  match column [] h with
  | None => vi_run ops (numeric_impl ops real_key real_qkey) (vi_new ops s) h = None
  | Some col => exists i, vi_run ops (numeric_impl ops real_key real_qkey) (vi_new ops s) h = Some i /\
      (forall op x, In op five -> x < 2 ^ 64 /\ d_nan x = false ->
         exists r, vi_lookup ops (numeric_impl ops real_key real_qkey) i op (Some x) = Some r /\
         covers col (fun v => holdsZ op (d_value v) (d_value x)) (content r)) /\
      (forall xs, (forall x, In (Some x) xs -> x < 2 ^ 64 /\ d_nan x = false) ->
         exists r, vi_lookup_list ops (numeric_impl ops real_key real_qkey) i op_in xs = Some r /\
         covers col (fun v => existsb (fun x => match x with Some x => (d_value v =? d_value x)%Z | None => false end) xs) (content r))
  end.
Proof.
  intros B ops content laws h F.
  assert (KEY : forall v, v < 2 ^ 64 /\ d_nan v = false -> exists n, precision_bin v = Some n /\ (Z.abs n <= 10 ^ 10)%Z).
  { intros v [V N]. pose proof (precision_bin_by v V N) as E. eexists. split; [exact E|]. exact (precision_bin_bound v _ V E). }
  assert (SH : forall n, (Z.abs n <= 10 ^ 10 + 1)%Z -> real_shift n = Some (int_key n) /\ int_key n < 2 ^ 66).
  { intros n H. assert (H' : (Z.abs n < 2 ^ 34)%Z) by lia. unfold real_shift.
    destruct (int_key_order n H') as (k & -> & E). cbn [option_map]. rewrite E. split; auto.
    pose proof (int_key_bound n H'). change (2 ^ 66) with (4 * 2 ^ 64). lia. }
  apply (numeric_sound ops content laws real_key real_qkey d_value (fun v => v < 2 ^ 64 /\ d_nan v = false) default_base); auto.
  - intros v V. destruct (KEY v V) as (n & E & L). unfold real_key. rewrite E. destruct (SH n ltac:(lia)) as [-> Q].
    eexists. split; [reflexivity|]. now rewrite default_base_product.
  - intros op x OP X. destruct (KEY x X) as (n & E & L). unfold real_qkey. rewrite E.
    destruct (SH (adjust op n)) as [-> Q]; [destruct op; cbn [adjust]; lia|].
    eexists. split; [reflexivity|]. split; [now rewrite default_base_product|].
    intros v k V EV. destruct (KEY v V) as (m & EM & LM). unfold real_key in EV. rewrite EM in EV.
    destruct (SH m ltac:(lia)) as [S _]. rewrite S in EV. injection EV as <-.
    pose proof (precision_bin_mono v x m n (proj1 V) (proj1 X) EM E) as M1.
    pose proof (precision_bin_mono x v n m (proj1 X) (proj1 V) E EM) as M2.
    set (dv := d_value v) in *. set (dx := d_value x) in *. clearbody dv dx.
    pose proof (int_key_mono m (adjust op n)) as I1. pose proof (int_key_mono (adjust op n) m) as I2.
    assert (I3 : m = adjust op n -> int_key m = int_key (adjust op n)) by now intros ->.
    set (km := int_key m) in *. set (kn := int_key (adjust op n)) in *. clearbody km kn.
    cbn in OP. destruct OP as [<-|[<-|[<-|[<-|[<-|[]]]]]]; cbn [holds holdsZ adjust] in *; lia.
Qed.
(** The column 1.2, -0.0 and infinity. *)
Example C09_real_example : forall v, In v (values_of [(Some 0x3ff3333333333333, 0%nat); (Some 0x8000000000000000, 1%nat); (Some 0x7ff0000000000000, 5%nat)]) ->
  v < 2 ^ 64 /\ d_nan v = false.
Proof. cbn [values_of flat_map fst app]. intros v [<-|[<-|[<-|[]]]]; split; reflexivity. Qed.

(** Witnesses of lookups that miss matching rows. [found impl b x op y] is the
    lookup of [op y] in a new index with base [b] after appending [x]. *)
Definition found {V} (impl : index_impl (list bool) (mcoder (list bool)) V V) (b : list N) (x : V) (op : relop) (y : V)
  : option (list bool) :=
  match ml_new_range list_ops b with
  | None => None
  | Some s =>
    match vi_run list_ops impl (vi_new list_ops s) [(Some x, 0%nat)] with
    | None => None
    | Some i => vi_lookup list_ops impl i op (Some y)
    end
  end.

(** A duration of -1s is not found by a query for negative durations. *)
Theorem C09_negative_time_refuted : exists x y, (- 2 ^ 63 <= x)%Z /\ (y < 2 ^ 63)%Z /\ holdsZ op_lt x y = true /\
  found (numeric_impl list_ops (temporal_key second) (temporal_qkey second)) default_base x op_lt y = Some [false].
Proof. exists (-1000000000)%Z, 0%Z. repeat split; vm_compute; congruence. Qed.

(** [!=] on binned types misses values of the same bin. *)
Theorem C09_binned_not_equal_refuted : exists x y, (0 <= x < 2 ^ 63)%Z /\ (0 <= y < 2 ^ 63)%Z /\ holdsZ op_ne x y = true /\
  found (numeric_impl list_ops (temporal_key second) (temporal_qkey second)) default_base x op_ne y = Some [false].
Proof. exists 1%Z, 2%Z. repeat split; vm_compute; congruence. Qed.
(** 1.25 != 1.125 *)
Theorem C09_real_not_equal_refuted : exists x y, x < 2 ^ 64 /\ y < 2 ^ 64 /\ d_nan x = false /\ d_nan y = false /\
  holdsZ op_ne (d_value x) (d_value y) = true /\
  found (numeric_impl list_ops real_key real_qkey) default_base x op_ne y = Some [false].
Proof. exists 0x3ff4000000000000, 0x3ff2000000000000. repeat split; vm_compute; congruence. Qed.

(** The same holds for [not_in]. *)
Theorem C09_binned_not_in_refuted : exists x y s i, (0 <= x < 2 ^ 63)%Z /\ (0 <= y < 2 ^ 63)%Z /\ x <> y /\
  ml_new_range list_ops default_base = Some s /\
  vi_run list_ops (numeric_impl list_ops (temporal_key second) (temporal_qkey second)) (vi_new list_ops s) [(Some x, 0%nat)] = Some i /\
  vi_lookup_list list_ops (numeric_impl list_ops (temporal_key second) (temporal_qkey second)) i op_not_in [Some y] = Some [false].
Proof.
  set (s := match ml_new_range list_ops default_base with Some s => s | None => {| mbase := []; mcoders := [] |} end).
  set (i := match vi_run list_ops (numeric_impl list_ops (temporal_key second) (temporal_qkey second)) (vi_new list_ops s) [(Some 1%Z, 0%nat)]
            with Some i => i | None => vi_new list_ops s end).
  exists 1%Z, 2%Z, s, i. repeat split; try discriminate; vm_compute; reflexivity.
Qed.

(** A configured base whose product is too small for the values makes range
    queries miss: with base 8, [9 > 5] is not found. *)
Theorem C09_small_base_refuted : exists b x y, well_defined b = true /\ holds op_gt x y = true /\
  found (numeric_impl list_ops count_key count_qkey) b x op_gt y = Some [false].
Proof. exists [8], 9, 5. repeat split. Qed.

(** * C10: lookups of nil *)

(** Whatever the concrete index does: if all appends succeed, then [== nil]
    returns exactly the rows appended as nil, and [!= nil] the other rows. *)
Theorem C10_nil : forall B (ops : bitmap_ops B) content, bitmap_laws ops content ->
  forall S V X (impl : index_impl B S V X) s h i, vi_run ops impl (vi_new ops s) h = Some i ->
  exists col r r', column [] h = Some col /\
    vi_lookup ops impl i op_eq None = Some r /\ vi_lookup ops impl i op_ne None = Some r' /\
    content r = map (fun c => match c with Nil => true | _ => false end) col /\
    content r' = map (fun c => match c with Nil => false | _ => true end) col.
Proof.
  intros B ops content laws S V X impl s h i R. set (I := fun (_ : S) (_ : list (option V)) => True).
  assert (G : forall h i0 col, VInv content I i0 col -> vi_run ops impl i0 h = Some i ->
    exists col', column col h = Some col' /\ VInv content I i col').
  { clear h R. induction h as [|[x pos] h IH]; intros i0 col J; cbn [vi_run column].
    - intros E. injection E as <-. eauto.
    - destruct (vi_append ops impl i0 x (N.of_nat pos)) as [i1|] eqn:E1; [|discriminate]. intros R.
      set (impl' := {| i_append := fun _ _ _ => Some (vi_state i1); i_lookup := i_lookup impl |} : index_impl B S V X).
      assert (E2 : vi_append ops impl' i0 x (N.of_nat pos) = Some i1).
      { revert E1. unfold vi_append. destruct (N.of_nat pos <? vi_offset ops i0); auto. destruct x as [v|]; auto.
        subst impl'. cbn [i_append]. destruct (i_append impl (vi_state i0) v (N.of_nat pos)); [|discriminate].
        intros Q. injection Q as <-. reflexivity. }
      pose proof (append_spec ops content laws impl' I i0 col x pos J) as A. destruct (write col x pos) as [col'|].
      + destruct A as (i2 & A & J2).
        { intros v _ s0 vals p _ _. exists (vi_state i1). split; auto. exact Logic.I. }
        rewrite E2 in A. injection A as <-. eauto.
      + rewrite A in E2; [discriminate|]. intros v _ s0 vals p _ _. exists (vi_state i1). split; auto. exact Logic.I. }
  destruct (G h (vi_new ops s) []) as (col & E & J); auto.
  { apply (VInv_new ops content laws). exact Logic.I. }
  destruct (lookup_nil_eq ops content laws impl I i col J) as (r & L & C).
  destruct (lookup_nil_ne ops content laws impl I i col J) as (r' & L' & C').
  exists col, r, r'. split; [exact E|]. split; [exact L|]. split; [exact L'|]. split.
  - rewrite C. apply map_ext. intros []; reflexivity.
  - rewrite C'. apply map_ext. intros []; reflexivity.
Qed.
Example C10_nil_example : exists i, vi_run list_ops (bool_impl list_ops) (vi_new list_ops []) [(None, 0%nat); (Some true, 1%nat); (None, 3%nat)] = Some i /\
  vi_lookup list_ops (bool_impl list_ops) i op_eq None = Some [true; false; false; true].
Proof. eexists. split; [vm_compute; reflexivity|reflexivity]. Qed.

(** Without skipped rows [!= nil] returns exactly the rows with a value. *)
Theorem C10_not_nil : forall B (ops : bitmap_ops B) content, bitmap_laws ops content ->
  forall S V X (impl : index_impl B S V X) s (xs : list (option V)) i,
  vi_run ops impl (vi_new ops s) (combine xs (seq 0 (length xs))) = Some i ->
  exists r, vi_lookup ops impl i op_ne None = Some r /\
    content r = map (fun x => match x with Some _ => true | None => false end) xs.
Proof.
  intros B ops content laws S V X impl s xs i R.
  destruct (C10_nil B ops content laws S V X impl s _ i R) as (col & r & r' & E & _ & L & _ & C).
  exists r'. split; auto.
  assert (Q : forall xs (col : list (cell V)), column col (combine xs (seq (length col) (length xs))) = Some (col ++ map cell_of xs)).
  { clear. induction xs as [|x xs IH]; intros col; cbn [length seq combine column map]; [now rewrite app_nil_r|].
    unfold write. rewrite (proj2 (Nat.ltb_ge _ _)) by lia. rewrite Nat.sub_diag. cbn [repeat app].
    specialize (IH (col ++ [cell_of x])). rewrite app_length in IH. cbn [length] in IH. rewrite Nat.add_1_r in IH. rewrite IH.
    now rewrite <- app_assoc. }
  specialize (Q xs []). cbn [length app] in Q. rewrite Q in E. injection E as <-. rewrite C, map_map.
  apply map_ext. intros [v|]; reflexivity.
Qed.
Example C10_not_nil_example : exists i,
  vi_run list_ops (bool_impl list_ops) (vi_new list_ops []) (combine [Some true; None; Some false] (seq 0 3)) = Some i.
Proof. eexists. vm_compute. reflexivity. Qed.

(** A row that was never appended is returned by [!= nil]. *)
Theorem C10_not_nil_gap_refuted : exists h i col, column [] h = Some col /\ nth_error col 1 = Some Gap /\
  vi_run list_ops (bool_impl list_ops) (vi_new list_ops []) h = Some i /\
  exists r, vi_lookup list_ops (bool_impl list_ops) i op_ne None = Some r /\ nth_error r 1 = Some true.
Proof.
  exists [(Some true, 0%nat); (Some true, 2%nat)]. eexists. eexists. split; [reflexivity|]. split; [reflexivity|].
  split; [vm_compute; reflexivity|]. eexists. split; reflexivity.
Qed.

(** Rows with nil are lost by [in] with a list that contains nil, and by [not_in]
    with one that does not. *)
Theorem C10_nil_in_list_refuted : exists h i, column [] h = Some [Nil : cell bool] /\
  vi_run list_ops (bool_impl list_ops) (vi_new list_ops []) h = Some i /\
  vi_lookup_list list_ops (bool_impl list_ops) i op_in [None] = Some [false] /\
  vi_lookup_list list_ops (bool_impl list_ops) i op_not_in [Some true] = Some [false].
Proof.
  exists [(None, 0%nat)]. eexists. split; [reflexivity|]. split; [vm_compute; reflexivity|]. split; reflexivity.
Qed.

Definition assumptions_index := (C08_signed, C08_double, C08_subnormal_refuted, C08_decimal_bin, C08_decimal_bin_refuted,
  C08_precision_bin, C09_count, C09_integer, C09_bool, C09_temporal, C09_real, C09_negative_time_refuted,
  C09_binned_not_equal_refuted, C09_real_not_equal_refuted, C09_binned_not_in_refuted, C09_small_base_refuted,
  C10_nil, C10_not_nil, C10_not_nil_gap_refuted, C10_nil_in_list_refuted).
Print Assumptions assumptions_index.
