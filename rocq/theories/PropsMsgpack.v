(** * C37: MessagePack *)

From Coq Require Import List ZArith NArith Bool Arith Lia ZifyBool ZifyNat ZifyN.
From Verif Require Import OperatorModel AddressModel AddressProofs DataModel TypeModel MsgpackModel MsgpackProofs.
Import ListNotations.
Open Scope N_scope.

(** ** Values *)

(** [fits t x] says that [x] is null or a value of the type [t] within the limits of the machine
    types and of the format; it holds no record. Such a value is written, comes back as it was,
    and skipping it ends exactly behind it, whatever follows. *)
Theorem C37_round_trip : forall t x rest, fits t x ->
  exists b, put x None 0 = Some (b, 1) /\ b <> [] /\ decode t (b ++ rest) = Some x /\ next (b ++ rest) = Some rest.
Proof.
  intros t x rest F. destruct (fits_stores t x F) as [b [E [P [S D]]]]. exists b.
  split; [exact (P None 0 Logic.I)|]. split; [exact E|]. split; [apply D|].
  unfold next. apply S. rewrite app_length. lia.
Qed.

(** Any number of values in a row: skipping [i] of them leads to value number [i]. *)
Theorem C37_sequence : forall ts xs rest i t x, Forall2 fits ts xs ->
  nth_error ts i = Some t -> nth_error xs i = Some x ->
  exists b n d, cats (map (fun y => put y None) xs) 0 = Some (b, n) /\
    nexts i (b ++ rest) = Some d /\ decode t d = Some x /\ nexts (length xs) (b ++ rest) = Some rest.
Proof.
  intros ts xs rest i t x H Et Ex.
  assert (G : exists bs, Forall2 (fun y b => forall s, put y None s = Some (b, s + 1)) xs bs /\ Forall skips bs /\
    forall j u y, nth_error ts j = Some u -> nth_error xs j = Some y -> exists c, nth_error bs j = Some c /\ stores u y c).
  { clear Et Ex. induction H as [|u y ts xs F H [bs [IH1 [IH2 IH3] ] ] ].
    - exists []. split; [constructor|]. split; [constructor|]. intros [|j] u y E; discriminate E.
    - destruct (fits_stores u y F) as [c S]. exists (c :: bs).
      split; [constructor; [intros s; apply S; exact Logic.I|exact IH1]|].
      split; [constructor; [exact (proj1 (proj2 (proj2 S)))|exact IH2]|].
      intros [|j] u0 y0 E1 E2; cbn [nth_error] in *; [|eapply IH3; eassumption].
      injection E1 as <-. injection E2 as <-. exists c. now split. }
  destruct G as [bs [G1 [G2 G3]]].
  assert (C : forall s, cats (map (fun y => put y None) xs) s = Some (concat bs, s + N.of_nat (length xs))).
  { clear - G1. induction G1 as [|y b xs bs Hb G IH]; intros s; cbn [map cats concat length].
    - f_equal. f_equal. lia.
    - rewrite Hb, IH. f_equal. f_equal. lia. }
  assert (L : length xs = length bs) by (eapply Forall2_len; exact G1).
  destruct (G3 i t x Et Ex) as [c [Ec S]].
  assert (Li : (i < length bs)%nat) by (apply nth_error_Some; congruence).
  exists (concat bs), (0 + N.of_nat (length xs)), (concat (skipn i bs) ++ rest).
  split; [apply C|]. split; [apply nexts_skip; [exact G2|lia]|]. split.
  - rewrite (skipn_nth _ _ _ _ Ec). cbn [concat]. rewrite <- app_assoc. apply S.
  - rewrite nexts_skip by (auto; lia). rewrite L, skipn_all. reflexivity.
Qed.

(** No value's bytes start another value's bytes, so different values have different bytes. *)
Theorem C37_prefix_free : forall t x y b c n m r s, fits t x -> fits t y ->
  put x None 0 = Some (b, n) -> put y None 0 = Some (c, m) -> b ++ r = c ++ s -> x = y /\ r = s.
Proof.
  intros t x y b c n m r s Fx Fy Px Py E.
  destruct (C37_round_trip t x r Fx) as [b' [Px' [_ [Dx Nx]]]]. destruct (C37_round_trip t y s Fy) as [c' [Py' [_ [Dy Ny]]]].
  rewrite Px in Px'. injection Px' as <- _. rewrite Py in Py'. injection Py' as <- _.
  rewrite E in Dx, Nx. split; congruence.
Qed.

Definition counts : ty := TBasic no_meta BCount.
Definition nested : ty := TMap no_meta (TBasic no_meta BString) (TList no_meta (TBasic no_meta BSubnet)).
Example C37_round_trip_example :
  let x := DMap [(DString [104; 105], DList [DSubnet (sn_make (v4_prefix ++ [10; 0; 0; 1]) 8); DNone]); (DNone, DList [])] in
  fits nested x /\
  put x None 0 = Some ([130; 162; 104; 105; 146; 146; 164; 10; 0; 0; 0; 204; 8; 192; 192; 144], 1) /\
  decode nested [130; 162; 104; 105; 146; 146; 164; 10; 0; 0; 0; 204; 8; 192; 192; 144; 7; 7] = Some x.
Proof.
  split; [|split; vm_compute; reflexivity].
  right. eexists. split; [reflexivity|]. split; [left; cbn; lia|].
  apply Forall_cons; [split|apply Forall_cons; [split|constructor]]; cbn [fst snd].
  - right. vm_compute. reflexivity.
  - right. eexists. split; [reflexivity|]. split; [vm_compute; reflexivity|].
    apply Forall_cons; [|apply Forall_cons; [left; reflexivity|constructor]].
    right. apply sn_make_wf. split; [reflexivity|]. repeat (apply Forall_cons; [reflexivity|]). constructor.
  - left. reflexivity.
  - right. eexists. split; [reflexivity|]. split; [vm_compute; reflexivity|constructor].
Qed.
Example C37_sequence_example :
  Forall2 fits [TBasic no_meta BTime; counts; TBasic no_meta BReal] [DTime (-33); DCount 70000; DReal 4607182418800017408] /\
  match cats (map (fun y => put y None) [DTime (-33); DCount 70000; DReal 4607182418800017408]) 0 with
  | Some (b, _) => match nexts 2 b with Some d => decode (TBasic no_meta BReal) d = Some (DReal 4607182418800017408) | None => False end
  | None => False
  end.
Proof.
  split.
  - constructor; [right; cbn; unfold int64; lia|]. constructor; [right; vm_compute; reflexivity|].
    constructor; [right; vm_compute; reflexivity|]. constructor.
  - vm_compute. reflexivity.
Qed.

(** ** Numbers, strings and bytes *)

(** Signed numbers of up to 64 bits, in the shortest form. *)
Theorem C37_signed : forall z rest, (- 2 ^ 63 <= z < 2 ^ 63)%Z ->
  exists o, visit (put_signed z ++ rest) = Some o /\ signed_view DInt o = DInt z /\ next (put_signed z ++ rest) = Some rest.
Proof.
  intros z rest B. destruct (put_signed_holds z B) as [o [[_ [S V]] [_ W]]]. exists o.
  split; [apply V|]. split; [apply W|]. unfold next. apply S. rewrite app_length. lia.
Qed.
Theorem C37_unsigned : forall n rest, n < 2 ^ 64 ->
  exists k, visit (put_unsigned n ++ rest) = Some (OUint k n) /\ next (put_unsigned n ++ rest) = Some rest.
Proof.
  intros n rest B. destruct (put_unsigned_holds n B) as [k [[_ [S V]] _]]. exists k.
  split; [apply V|]. unfold next. apply S. rewrite app_length. lia.
Qed.
Theorem C37_string : forall s rest, N.of_nat (length s) < 2 ^ 32 ->
  exists b, put_string s = Some b /\ visit (b ++ rest) = Some (OString s) /\ next (b ++ rest) = Some rest.
Proof.
  intros s rest B. destruct (put_string_holds s B) as [b [E [_ [S V]]]]. exists b. split; [exact E|].
  split; [apply V|]. unfold next. apply S. rewrite app_length. lia.
Qed.
(** Longer strings and byte sequences are refused. *)
Theorem C37_too_long : forall s, 2 ^ 32 <= N.of_nat (length s) -> put_string s = None /\ put_binary s = None.
Proof.
  intros s B. change (2 ^ 32) with 4294967296 in B. unfold put_string, put_binary.
  destruct (N.leb_spec (N.of_nat (length s)) 31); [lia|]. destruct (N.leb_spec (N.of_nat (length s)) 65535); [lia|].
  destruct (N.leb_spec (N.of_nat (length s)) 255); [lia|].
  destruct (N.leb_spec (N.of_nat (length s)) 4294967295); [lia|]. split; reflexivity.
Qed.
(** Byte sequences come back, but only those of more than 255 bytes can be skipped. *)
Theorem C37_binary : forall s rest, N.of_nat (length s) < 2 ^ 32 ->
  exists b, put_binary s = Some b /\ visit (b ++ rest) = Some (OBinary s) /\
    (255 < N.of_nat (length s) -> next (b ++ rest) = Some rest).
Proof.
  intros s rest B. destruct (put_binary_visit s rest B) as [b [E V]]. exists b. split; [exact E|]. split; [exact V|].
  intros L. destruct (put_binary_holds s (conj L B)) as [b' [E' [_ [S _]]]]. rewrite E in E'. injection E' as <-.
  unfold next. apply S. rewrite app_length. lia.
Qed.
(** Skipping a byte sequence of 1 to 255 bytes always ends on its last byte. *)
Theorem C37_short_binary_refuted : forall s x rest, N.of_nat (length (s ++ [x])) <= 255 ->
  exists b, put_binary (s ++ [x]) = Some b /\ next (b ++ rest) = Some (x :: rest).
Proof.
  intros s x rest L. unfold put_binary. destruct (N.leb_spec (N.of_nat (length (s ++ [x]))) 255) as [_|X]; [|lia].
  eexists. split; [reflexivity|]. unfold next. cbn [app length next_f]. change (format_of 196) with (FBin 1). cbv iota.
  set (n := N.of_nat (length (s ++ [x]))) in *.
  assert (E : be 1 n = [n]) by (cbn [be app]; rewrite N.mod_small by lia; reflexivity).
  rewrite E. cbn [app]. replace (n :: (s ++ [x]) ++ rest) with ((n :: s) ++ x :: rest) by (cbn [app]; now rewrite <- app_assoc).
  cbn [app]. change (n :: s ++ x :: rest) with ((n :: s) ++ x :: rest). apply drop_app'.
  unfold n. rewrite app_length. cbn [length]. f_equal. lia.
Qed.
Theorem C37_short_string_refuted : exists s b, add_str8 s = Some b /\ visit b = Some (OString s) /\ next b <> Some [].
Proof. exists [97; 98], [217; 2; 97; 98]. repeat split. vm_compute. discriminate. Qed.

Example C37_numbers_example :
  visit (put_signed (-32)) = Some (OInt 1 (-32)) /\ length (put_signed (-33)) = 2%nat /\
  visit (put_signed (- 2 ^ 63)) = Some (OInt 8 (- 2 ^ 63)) /\ visit (put_unsigned 65536) = Some (OUint 4 65536) /\
  put_binary [1; 2] = Some [196; 2; 1; 2] /\ next [196; 2; 1; 2; 7] = Some [2; 7].
Proof. vm_compute. auto 8. Qed.

(** ** Times *)

(** A time comes back unless it lies before 1970 and has a fraction of a second, or is a whole
    second between 2038 and 2106. *)
Theorem C37_time : forall t rest, time_fits t ->
  visit (add_time t ++ rest) = Some (OTime t) /\ next (add_time t ++ rest) = Some rest.
Proof.
  intros t rest F. destruct (add_time_holds t F) as [_ [S V]]. split; [apply V|].
  unfold next. apply S. rewrite app_length. lia.
Qed.
Theorem C37_time_2038_refuted : exists t, int64 t /\ visit (add_time t) = Some (OTime (t - 2 ^ 32 * 1000000000)).
Proof. exists (2 ^ 31 * 1000000000)%Z. split; [unfold int64; lia|]. vm_compute. reflexivity. Qed.
Theorem C37_time_before_1970_refuted : exists t u, int64 t /\ int64 u /\ (t < -1000000000 < u)%Z /\ (u < 0)%Z /\
  visit (add_time t) <> Some (OTime t) /\ visit (add_time u) <> Some (OTime u).
Proof.
  exists (-1000000001)%Z, (-1)%Z. split; [unfold int64; lia|]. split; [unfold int64; lia|].
  split; [lia|]. split; [lia|]. split; vm_compute; discriminate.
Qed.
Example C37_time_example : time_fits 1600000000123456789 /\ time_fits (-5000000000) /\ time_fits 1600000000000000000 /\
  visit (add_time 1600000000123456789) = Some (OTime 1600000000123456789).
Proof.
  unfold time_fits, int64. split; [split; [lia|left; split; [lia|vm_compute; discriminate] ]|].
  split; [split; [lia|right; split; [reflexivity|] ]|].
  { change (-5000000000 / 1000000000)%Z with (-5)%Z. lia. }
  split; [split; [lia|right; split; [reflexivity|] ]|].
  { change (1600000000000000000 / 1000000000)%Z with 1600000000%Z. lia. }
  vm_compute. reflexivity.
Qed.

(** ** Table slices *)

(** Rows whose values pass the type check of their column and fit the format are accepted, the
    slice has as many rows, and reads back every value. *)
Theorem C37_slice : forall cols rs, cols <> [] -> Forall (Forall2 column_fits cols) rs ->
  exists b s, add_all cols (concat rs) empty_builder = Some (repeat true (length (concat rs)), b) /\
    finish cols b = Some s /\ rows s = length rs /\
    forall r c xs x, nth_error rs r = Some xs -> nth_error xs c = Some x -> at_ s r c = Some x.
Proof. exact slice_round_trip. Qed.

Example C37_slice_example : let cols := [counts; TList no_meta (TBasic no_meta BString)] in
  let rs := [[DCount 5; DList [DString [97]; DNone]]; [DNone; DList []]; [DCount 300; DNone]] in
  Forall (Forall2 column_fits cols) rs /\
  match add_all cols (concat rs) empty_builder with
  | Some (_, b) => match finish cols b with Some s => s_offsets s = [0%nat; 5%nat; 7%nat] /\ at_ s 0 1 = Some (DList [DString [97]; DNone]) | None => False end
  | None => False
  end.
Proof.
  split; [|vm_compute; auto].
  apply Forall_cons; [|apply Forall_cons; [|apply Forall_cons; [|constructor]]].
  - constructor; [split; [right; vm_compute; reflexivity|reflexivity]|]. constructor; [|constructor].
    split; [|reflexivity]. right. eexists. split; [reflexivity|]. split; [vm_compute; reflexivity|].
    apply Forall_cons; [right; vm_compute; reflexivity|]. apply Forall_cons; [left; reflexivity|constructor].
  - constructor; [split; [left; reflexivity|reflexivity]|]. constructor; [|constructor].
    split; [|reflexivity]. right. eexists. split; [reflexivity|]. split; [vm_compute; reflexivity|constructor].
  - constructor; [split; [right; vm_compute; reflexivity|reflexivity]|]. constructor; [|constructor].
    split; [left; reflexivity|reflexivity].
Qed.

(** The limit on maps is exact: with 8 to 15 entries, 32768 to 65535 entries, or 2^31 and more,
    the builder fails an assertion, although the format has room for them. *)
Theorem C37_map_refuted : forall xs, ~ map_fits (N.of_nat (length xs)) -> put (DMap xs) None 0 = None.
Proof. intros xs. apply put_map_fails. Qed.
Example C37_map_example : let x := DMap (map (fun n => (DCount n, DBool true)) [1; 2; 3; 4; 5; 6; 7; 8]) in
  type_check (TMap no_meta counts (TBasic no_meta BBool)) x = true /\ ~ map_fits 8 /\ add [TMap no_meta counts (TBasic no_meta BBool)] x empty_builder = None.
Proof. split; [reflexivity|]. split; [unfold map_fits; lia|]. vm_compute. reflexivity. Qed.

(** A list of records passes the type check and is written, but reading it fails an assertion. *)
Theorem C37_nested_record_refuted : exists t x b, type_check t x = true /\ add [t] x empty_builder = Some (true, b) /\
  exists s, finish [t] b = Some s /\ at_ s 0 0 = None.
Proof.
  exists (TList no_meta (TRecord no_meta [([97], counts)])), (DList [DRecord [([97], DCount 1)]]).
  exists {| b_column := 0; b_offsets := [0%nat]; b_data := [145; 1] |}. split; [reflexivity|]. split; [vm_compute; reflexivity|].
  eexists. split; [reflexivity|]. vm_compute. reflexivity.
Qed.
(** A list whose first element has the right type is accepted; the others may come back as null. *)
Theorem C37_mixed_list_refuted : exists t x b s, type_check t x = true /\ add [t] x empty_builder = Some (true, b) /\
  finish [t] b = Some s /\ at_ s 0 0 = Some (DList [DCount 1; DNone]) /\ x = DList [DCount 1; DString [97]].
Proof.
  exists (TList no_meta counts), (DList [DCount 1; DString [97]]), {| b_column := 0; b_offsets := [0%nat]; b_data := [146; 1; 161; 97] |}.
  eexists. split; [reflexivity|]. split; [vm_compute; reflexivity|]. split; [reflexivity|]. split; [vm_compute; reflexivity|reflexivity].
Qed.
(** A column of type none accepts every value; reading it back fails an assertion. *)
Theorem C37_none_column_refuted : exists x b s, add [TNone no_meta] x empty_builder = Some (true, b) /\
  finish [TNone no_meta] b = Some s /\ at_ s 0 0 = None.
Proof.
  exists (DCount 1), {| b_column := 0; b_offsets := [0%nat]; b_data := [1] |}. eexists.
  split; [vm_compute; reflexivity|]. split; [reflexivity|]. vm_compute. reflexivity.
Qed.

Definition assumptions_Msgpack :=
  (C37_round_trip, C37_sequence, C37_prefix_free, C37_signed, C37_unsigned, C37_string, C37_too_long, C37_binary,
   C37_short_binary_refuted, C37_short_string_refuted, C37_time, C37_time_2038_refuted, C37_time_before_1970_refuted,
   C37_slice, C37_map_refuted, C37_nested_record_refuted, C37_mixed_list_refuted, C37_none_column_refuted).
Print Assumptions assumptions_Msgpack.
