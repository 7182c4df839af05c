(** * Proofs about the MessagePack encoding *)

From Coq Require Import List ZArith NArith Bool Arith Lia ZifyBool ZifyNat ZifyN.
From Verif Require Import OperatorModel AddressModel AddressProofs DataModel TypeModel TypeProofs MsgpackModel.
Import ListNotations.
Open Scope N_scope.

(** ** Numbers *)

Lemma all_below : forall n (P : N -> Prop), Forall P (map N.of_nat (seq 0 n)) -> forall b, b < N.of_nat n -> P b.
Proof.
  intros n P H b Hb. rewrite Forall_forall in H. apply H. apply in_map_iff.
  exists (N.to_nat b). split; [lia|]. apply in_seq. lia.
Qed.

Lemma be_length : forall k n, length (be k n) = k.
Proof. induction k as [|k IH]; intros n; [reflexivity|]. cbn [be]. rewrite app_length, IH. cbn. lia. Qed.

Lemma of_be_be : forall k n, of_be (be k n) = n mod 256 ^ N.of_nat k.
Proof.
  unfold of_be. induction k as [|k IH]; intros n.
  - cbn [be fold_left]. rewrite N.mod_1_r. reflexivity.
  - cbn [be]. rewrite fold_left_app, IH. cbn [fold_left].
    rewrite Nat2N.inj_succ, N.pow_succ_r'.
    rewrite N.mod_mul_r by (try apply N.pow_nonzero; discriminate). lia.
Qed.

Lemma of_be_small : forall k n, n < 256 ^ N.of_nat k -> of_be (be k n) = n.
Proof. intros k n H. rewrite of_be_be. now apply N.mod_small. Qed.

Lemma le_length : forall k n, length (le k n) = k.
Proof. intros. unfold le. now rewrite rev_length, be_length. Qed.
Lemma of_le_le : forall k n, n < 256 ^ N.of_nat k -> of_le (le k n) = n.
Proof. intros. unfold of_le, le. rewrite rev_involutive. now apply of_be_small. Qed.

Lemma unsigned_bound : forall k z, unsigned k z < 256 ^ N.of_nat k.
Proof.
  intros k z. unfold unsigned.
  assert (P : (0 < 256 ^ Z.of_nat k)%Z) by (apply Z.pow_pos_nonneg; lia).
  pose proof (Z.mod_pos_bound z _ P) as B.
  apply N2Z.inj_lt. rewrite Z2N.id by lia. rewrite N2Z.inj_pow, nat_N_Z. exact (proj2 B).
Qed.

Lemma signed_unsigned : forall k z, (0 < k)%nat ->
  (- (256 ^ Z.of_nat k / 2) <= z < 256 ^ Z.of_nat k / 2)%Z -> signed k (unsigned k z) = z.
Proof.
  intros k z K B. unfold signed, unsigned.
  assert (E : exists h, (256 ^ Z.of_nat k = 2 * h)%Z /\ (0 < h)%Z /\ 256 ^ N.of_nat k = 2 * Z.to_N h).
  { destruct k as [|k]; [lia|]. exists (128 * 256 ^ Z.of_nat k)%Z.
    assert (P : (0 < 256 ^ Z.of_nat k)%Z) by (apply Z.pow_pos_nonneg; lia).
    rewrite Nat2Z.inj_succ, Z.pow_succ_r by lia. split; [lia|]. split; [lia|].
    apply N2Z.inj. rewrite N2Z.inj_pow, N2Z.inj_mul, Z2N.id by lia.
    rewrite Nat2N.inj_succ, N2Z.inj_succ, Z.pow_succ_r by lia. rewrite nat_N_Z. lia. }
  destruct E as [h [E1 [E2 E3]]]. rewrite E1 in *. rewrite E3.
  replace (2 * h / 2)%Z with h in B by (rewrite Z.mul_comm, Z.div_mul; lia).
  replace (2 * Z.to_N h / 2) with (Z.to_N h) by (rewrite N.mul_comm, N.div_mul; lia).
  cbv zeta. destruct (Z_lt_le_dec z 0) as [Neg|Pos].
  - assert (M : (z mod (2 * h) = z + 2 * h)%Z).
    { symmetry. apply (Z.mod_unique z (2 * h) (-1)); lia. }
    rewrite M. destruct (N.ltb_spec (Z.to_N (z + 2 * h)) (Z.to_N h)) as [L|L]; lia.
  - rewrite Z.mod_small by lia. destruct (N.ltb_spec (Z.to_N z) (Z.to_N h)) as [L|L]; lia.
Qed.

(** ** Cutting buffers *)

Lemma take_app : forall a r, take (N.of_nat (length a)) (a ++ r) = Some (a, r).
Proof.
  intros a r. unfold take. rewrite app_length, Nat2N.id.
  destruct (N.ltb_spec (N.of_nat (length a + length r)) (N.of_nat (length a))) as [H|H]; [lia|].
  rewrite firstn_app, firstn_all, Nat.sub_diag. cbn [firstn]. rewrite app_nil_r.
  now rewrite skipn_app, skipn_all, Nat.sub_diag.
Qed.
Lemma take_app' : forall n a r, n = N.of_nat (length a) -> take n (a ++ r) = Some (a, r).
Proof. intros n a r ->. apply take_app. Qed.
Lemma drop_app' : forall n a r, n = N.of_nat (length a) -> drop n (a ++ r) = Some r.
Proof. intros n a r H. unfold drop. now rewrite take_app'. Qed.
Lemma num_be : forall k n r, n < 256 ^ N.of_nat k -> num k (be k n ++ r) = Some (n, r).
Proof.
  intros k n r H. unfold num. rewrite take_app' by (now rewrite be_length). now rewrite of_be_small.
Qed.
Lemma drop_be : forall k n r, drop (N.of_nat k) (be k n ++ r) = Some r.
Proof. intros. apply drop_app'. now rewrite be_length. Qed.

(** ** Formats *)

Lemma format_fixarray : forall n, n < 16 -> format_of (N.lor (N.land 159 240) n) = FFixArray n.
Proof. apply (all_below 16). cbn [seq map]. repeat (constructor; [reflexivity|]). constructor. Qed.
Lemma format_fixmap : forall n, n < 16 -> format_of (N.lor (N.land 143 240) n) = FFixMap n.
Proof. apply (all_below 16). cbn [seq map]. repeat (constructor; [reflexivity|]). constructor. Qed.
Lemma format_fixstr : forall n, n < 32 -> format_of (N.lor 160 n) = FFixStr n.
Proof. apply (all_below 32). cbn [seq map]. repeat (constructor; [reflexivity|]). constructor. Qed.
Lemma format_fixint : forall n, n < 32 -> format_of (N.land n 127) = FPosFix n /\ unsigned 1 (Z.land (Z.of_N n) 127) = n.
Proof. apply (all_below 32). cbn [seq map]. repeat (constructor; [split; reflexivity|]). constructor. Qed.
Lemma format_posfix : forall n, n < 32 -> format_of n = FPosFix n /\ signed 1 n = Z.of_N n.
Proof. apply (all_below 32). cbn [seq map]. repeat (constructor; [split; reflexivity|]). constructor. Qed.
Lemma format_negfix : forall n, n < 32 ->
  format_of (unsigned 1 (Z.land (Z.of_N n - 32) 255)) = FNegFix (Z.of_N n - 32).
Proof. apply (all_below 32). cbn [seq map]. repeat (constructor; [reflexivity|]). constructor. Qed.

(** ** Single objects *)

(** [b] holds one object: it can be skipped and is visited as [o], whatever follows. *)
Definition holds (b : list N) (o : object) : Prop :=
  b <> [] /\ (forall f r, (length b <= f)%nat -> next_f f (b ++ r) = Some r) /\ (forall r, visit (b ++ r) = Some o).

Lemma holds_uint : forall c k n, format_of c = FUint k -> n < 256 ^ N.of_nat k -> holds (c :: be k n) (OUint k n).
Proof.
  intros c k n F B. split; [discriminate|]. split.
  - intros [|f] r L; [cbn in L; lia|]. cbn [app next_f]. rewrite F. apply drop_be.
  - intros r. cbn [app visit]. rewrite F. now rewrite num_be.
Qed.
Lemma holds_int : forall c k n, format_of c = FInt k -> n < 256 ^ N.of_nat k -> holds (c :: be k n) (OInt k (signed k n)).
Proof.
  intros c k n F B. split; [discriminate|]. split.
  - intros [|f] r L; [cbn in L; lia|]. cbn [app next_f]. rewrite F. apply drop_be.
  - intros r. cbn [app visit]. rewrite F. now rewrite num_be.
Qed.
Lemma holds_signed : forall c k z, format_of c = FInt k -> (0 < k)%nat ->
  (- (256 ^ Z.of_nat k / 2) <= z < 256 ^ Z.of_nat k / 2)%Z -> holds (c :: be k (unsigned k z)) (OInt k z).
Proof.
  intros c k z F K B. rewrite <- (signed_unsigned k z K B) at 2. apply holds_int; [exact F|]. apply unsigned_bound.
Qed.
Lemma holds_one : forall c o, (forall f r, next_f (S f) (c :: r) = Some r) -> (forall r, visit (c :: r) = Some o) -> holds [c] o.
Proof.
  intros c o Hn V. split; [discriminate|]. split; [|exact V].
  intros [|f] r L; [cbn in L; lia|]. apply Hn.
Qed.

Definition int64 (z : Z) : Prop := (- 2 ^ 63 <= z < 2 ^ 63)%Z.

Lemma put_integer_holds : forall z, int64 z -> holds (put_integer z) (OInt 8 z).
Proof. intros z B. apply holds_signed; [reflexivity|lia|]. unfold int64 in B. exact B. Qed.

Lemma put_signed_holds : forall z, int64 z -> exists o, holds (put_signed z) o /\ o <> ONil /\ forall f, signed_view f o = f z.
Proof.
  intros z B. unfold put_signed, int64 in *.
  assert (G : forall c k, format_of c = FInt k -> (0 < k)%nat ->
    (- (256 ^ Z.of_nat k / 2) <= z < 256 ^ Z.of_nat k / 2)%Z ->
    exists o, holds (c :: be k (unsigned k z)) o /\ o <> ONil /\ forall f, signed_view f o = f z).
  { intros c k F K R. exists (OInt k z). split; [now apply holds_signed|]. split; [discriminate|reflexivity]. }
  change (- 2 ^ 31)%Z with (-2147483648)%Z. change (- 2 ^ 15)%Z with (-32768)%Z. change (- 2 ^ 7)%Z with (-128)%Z.
  change (- 32)%Z with (-32)%Z. change (2 ^ 31)%Z with 2147483648%Z. change (2 ^ 15)%Z with 32768%Z. 
  change (2 ^ 63)%Z with 9223372036854775808%Z in B.
  destruct (Z.ltb_spec z (-2147483648)) as [H1|H1].
  { apply G; [reflexivity|lia|]. change (256 ^ Z.of_nat 8 / 2)%Z with 9223372036854775808%Z. lia. }
  destruct (Z.ltb_spec z (-32768)) as [H2|H2].
  { apply G; [reflexivity|lia|]. change (256 ^ Z.of_nat 4 / 2)%Z with 2147483648%Z. lia. }
  destruct (Z.ltb_spec z (-128)) as [H3|H3].
  { apply G; [reflexivity|lia|]. change (256 ^ Z.of_nat 2 / 2)%Z with 32768%Z. lia. }
  destruct (Z.ltb_spec z (-32)) as [H4|H4].
  { apply G; [reflexivity|lia|]. change (256 ^ Z.of_nat 1 / 2)%Z with 128%Z. lia. }
  destruct (Z.ltb_spec z 0) as [H5|H5].
  { exists (OInt 1 z). split; [|split; [discriminate|reflexivity]].
    pose proof (format_negfix (Z.to_N (z + 32)) ltac:(lia)) as F.
    replace (Z.of_N (Z.to_N (z + 32)) - 32)%Z with z in F by lia.
    apply holds_one; intros; cbn [next_f visit]; now rewrite F. }
  destruct (Z.ltb_spec z 32) as [H6|H6].
  { exists (OUint 1 (Z.to_N z)).
    destruct (format_fixint (Z.to_N z) ltac:(lia)) as [_ E]. rewrite Z2N.id in E by lia. rewrite E.
    destruct (format_posfix (Z.to_N z) ltac:(lia)) as [F S].
    split; [|split; [discriminate|]].
    - apply holds_one; intros; cbn [next_f visit]; now rewrite F.
    - intros f. cbn [signed_view]. rewrite S. f_equal. lia. }
  destruct (Z.leb_spec z 127) as [H7|H7].
  { apply G; [reflexivity|lia|]. change (256 ^ Z.of_nat 1 / 2)%Z with 128%Z. lia. }
  destruct (Z.leb_spec z (32768 - 1)) as [H8|H8].
  { apply G; [reflexivity|lia|]. change (256 ^ Z.of_nat 2 / 2)%Z with 32768%Z. lia. }
  destruct (Z.leb_spec z (2147483648 - 1)) as [H9|H9].
  { apply G; [reflexivity|lia|]. change (256 ^ Z.of_nat 4 / 2)%Z with 2147483648%Z. lia. }
  apply G; [reflexivity|lia|]. change (256 ^ Z.of_nat 8 / 2)%Z with 9223372036854775808%Z. lia.
Qed.

Lemma put_unsigned_holds : forall n, n < 2 ^ 64 -> exists k, holds (put_unsigned n) (OUint k n) /\ (n < 256 -> k = 1%nat).
Proof.
  intros n B. unfold put_unsigned. change (2 ^ 64) with 18446744073709551616 in B.
  destruct (N.ltb_spec n 32) as [H1|H1].
  { exists 1%nat. split; [|auto]. destruct (format_fixint n H1) as [F _].
    apply holds_one; intros; cbn [next_f visit]; now rewrite F. }
  destruct (N.leb_spec n 255) as [H2|H2].
  { exists 1%nat. split; [|auto]. apply holds_uint; [reflexivity|]. change (256 ^ N.of_nat 1) with 256. lia. }
  destruct (N.leb_spec n 65535) as [H3|H3].
  { exists 2%nat. split; [|lia]. apply holds_uint; [reflexivity|]. change (256 ^ N.of_nat 2) with 65536. lia. }
  destruct (N.leb_spec n 4294967295) as [H4|H4].
  { exists 4%nat. split; [|lia]. apply holds_uint; [reflexivity|]. change (256 ^ N.of_nat 4) with 4294967296. lia. }
  exists 8%nat. split; [|lia]. apply holds_uint; [reflexivity|]. exact B.
Qed.

Lemma put_double_holds : forall p, p < 2 ^ 64 -> holds (put_double p) (OFloat64 p).
Proof.
  intros p B. unfold put_double. split; [discriminate|]. split.
  - intros [|f] r L; [cbn in L; lia|]. cbn [app next_f]. change (format_of 203) with FFloat64. cbv iota.
    apply drop_app'. now rewrite le_length.
  - intros r. cbn [app visit]. change (format_of 203) with FFloat64. cbv iota.
    rewrite take_app' by (now rewrite le_length). rewrite of_le_le; [reflexivity|exact B].
Qed.

Lemma add_fixstr_holds : forall s, (length s <= 31)%nat -> exists b, add_fixstr s = Some b /\ holds b (OString s).
Proof.
  intros s H. unfold add_fixstr. destruct (N.leb_spec (N.of_nat (length s)) 31) as [L|L]; [|lia].
  eexists. split; [reflexivity|]. pose proof (format_fixstr (N.of_nat (length s)) ltac:(lia)) as F.
  split; [discriminate|]. split.
  - intros [|f] r Lf; [cbn in Lf; lia|]. cbn [app next_f]. rewrite F. now apply drop_app'.
  - intros r. cbn [app visit]. rewrite F. now rewrite take_app'.
Qed.

Lemma holds_counted : forall c k n (s : list N) o,
  (forall f r, next_f (S f) (c :: r) = match num k r with Some (n, r') => drop n r' | None => None end) ->
  (forall r, visit (c :: r) = match num k r with
     | Some (n, r') => match take n r' with Some (s, _) => Some (o s) | None => None end
     | None => None end) ->
  n = N.of_nat (length s) -> n < 256 ^ N.of_nat k -> holds (c :: be k n ++ s) (o s).
Proof.
  intros c k n s o Hn V E B. split; [discriminate|]. split.
  - intros [|f] r L; [cbn in L; lia|]. cbn [app]. rewrite Hn, <- app_assoc, num_be by exact B. now apply drop_app'.
  - intros r. cbn [app]. rewrite V, <- app_assoc, num_be by exact B. now rewrite take_app'.
Qed.

Lemma put_string_holds : forall s, N.of_nat (length s) < 2 ^ 32 -> exists b, put_string s = Some b /\ holds b (OString s).
Proof.
  intros s B. change (2 ^ 32) with 4294967296 in B. unfold put_string.
  destruct (N.leb_spec (N.of_nat (length s)) 31) as [H1|H1]; [apply add_fixstr_holds; lia|].
  destruct (N.leb_spec (N.of_nat (length s)) 65535) as [H2|H2].
  { eexists. split; [reflexivity|]. apply holds_counted; [reflexivity|reflexivity|reflexivity|].
    change (256 ^ N.of_nat 2) with 65536. lia. }
  destruct (N.leb_spec (N.of_nat (length s)) 4294967295) as [H3|H3]; [|lia].
  eexists. split; [reflexivity|]. apply holds_counted; [reflexivity|reflexivity|reflexivity|].
  exact B.
Qed.

(** Byte sequences: the short ones are read back, but not skipped. *)
Lemma put_binary_holds : forall s, 255 < N.of_nat (length s) < 2 ^ 32 -> exists b, put_binary s = Some b /\ holds b (OBinary s).
Proof.
  intros s [B1 B]. change (2 ^ 32) with 4294967296 in B. unfold put_binary.
  destruct (N.leb_spec (N.of_nat (length s)) 255) as [H1|H1]; [lia|].
  destruct (N.leb_spec (N.of_nat (length s)) 65535) as [H2|H2].
  { eexists. split; [reflexivity|]. apply holds_counted; [reflexivity|reflexivity|reflexivity|].
    change (256 ^ N.of_nat 2) with 65536. lia. }
  destruct (N.leb_spec (N.of_nat (length s)) 4294967295) as [H3|H3]; [|lia].
  eexists. split; [reflexivity|]. apply holds_counted; [reflexivity|reflexivity|reflexivity|].
  exact B.
Qed.
Lemma put_binary_visit : forall s r, N.of_nat (length s) < 2 ^ 32 -> exists b, put_binary s = Some b /\ visit (b ++ r) = Some (OBinary s).
Proof.
  intros s r B. destruct (N.leb_spec (N.of_nat (length s)) 255) as [H1|H1].
  - unfold put_binary. destruct (N.leb_spec (N.of_nat (length s)) 255) as [_|X]; [|lia].
    eexists. split; [reflexivity|]. cbn [app visit]. change (format_of 196) with (FBin 1). cbv iota.
    rewrite <- app_assoc, num_be by (change (256 ^ N.of_nat 1) with 256; lia). now rewrite take_app'.
  - destruct (put_binary_holds s (conj H1 B)) as [b [E [_ [_ V]]]]. exists b. split; [exact E|]. apply V.
Qed.

(** ** Values of a type *)

(** How many entries a map may have: keys and values count against the capacity. *)
Definition map_fits (n : N) : Prop := n <= 7 \/ 16 <= n <= 32767 \/ 65536 <= n < 2 ^ 31.

(** The values of a type that the encoding can store and give back. *)
Fixpoint fits (t : ty) (x : data) {struct t} : Prop :=
  x = DNone \/
  match t with
  | TNull | TNone _ | TRecord _ _ => False
  | TBasic _ b =>
    match b, x with
    | BBool, DBool _ => True
    | BInteger, DInt z | BDuration, DDuration z | BTime, DTime z => int64 z
    | BCount, DCount n | BReal, DReal n => n < 2 ^ 64
    | BString, DString s | BPattern, DPattern s => N.of_nat (length s) < 2 ^ 32
    | BAddress, DAddress a => wf a
    | BSubnet, DSubnet s => sn_wf s
    | _, _ => False
    end
  | TEnum _ _ => exists n, x = DEnum n /\ n < 256
  | TList _ v => exists xs, x = DList xs /\ N.of_nat (length xs) < 2 ^ 32 /\ Forall (fits v) xs
  | TMap _ k v => exists xs, x = DMap xs /\ map_fits (N.of_nat (length xs)) /\
                  Forall (fun p => fits k (fst p) /\ fits v (snd p)) xs
  | TAlias _ v => fits v x
  end.

Definition room (cap : option N) (size : N) : Prop := match cap with Some c => size < c | None => True end.

(** [b] is what is written for [x] and what gives it back. *)
Definition stores (t : ty) (x : data) (b : list N) : Prop :=
  b <> [] /\ (forall cap size, room cap size -> put x cap size = Some (b, size + 1)) /\
  (forall f r, (length b <= f)%nat -> next_f f (b ++ r) = Some r) /\
  (forall r, decode t (b ++ r) = Some x).

Lemma add_scalar_some : forall cap b size, room cap size -> add_scalar cap (Some b) size = Some (b, size + 1).
Proof. intros [c|] b size R; [|reflexivity]. cbn in *. destruct (N.leb_spec c size); [lia|reflexivity]. Qed.

Lemma stores_scalar : forall t x b o, holds b o ->
  (forall cap, put x cap = add_scalar cap (Some b)) ->
  (forall buf, visit buf = Some o -> decode t buf = Some x) -> stores t x b.
Proof.
  intros t x b o [E [H V]] P D. split; [exact E|]. split; [|split; [exact H|]].
  - intros cap size R. rewrite P. now apply add_scalar_some.
  - intros r. apply D, V.
Qed.

Lemma stores_none : forall t, stores t DNone [192].
Proof.
  intros t. split; [discriminate|]. split; [|split].
  - intros cap size R. now apply add_scalar_some.
  - intros [|f] r L; [cbn in L; lia|]. reflexivity.
  - intros r. destruct t; reflexivity.
Qed.

Lemma address_string_length : forall a, wf a -> length (address_string a) = 4%nat \/ length (address_string a) = 16%nat.
Proof.
  intros a [L _]. unfold address_string. destruct (is_v4 a); [left|right; exact L].
  rewrite skipn_length. lia.
Qed.
Lemma make_address_string : forall a, wf a -> make_address (address_string a) = a.
Proof.
  intros a [L _]. unfold address_string, make_address. destruct (is_v4 a) eqn:V.
  - rewrite skipn_length, L. cbn [Nat.eqb Nat.sub]. unfold is_v4 in V. apply bytes_eqb_iff in V.
    rewrite <- V. apply firstn_skipn.
  - rewrite L. cbn [Nat.eqb]. rewrite <- L. apply firstn_all.
Qed.
Lemma sn_make_length : forall s, sn_wf s -> sn_make (sn_net s) (sn_length s) = s.
Proof.
  intros [a n] [W [B [M V]]]. cbn [sn_net sn_bits] in *. unfold sn_make, sn_length. cbn [sn_net sn_bits].
  destruct (is_v4 a).
  - specialize (V eq_refl). destruct (N.ltb_spec 32 (n - 96)) as [H|H]; [lia|].
    replace (n - 96 + 96) with n by lia. now rewrite M.
  - destruct (N.ltb_spec 128 n) as [H|H]; [lia|]. now rewrite M.
Qed.
Lemma sn_length_bound : forall s, sn_wf s -> sn_length s < 256.
Proof. intros [a n] [_ [B _]]. unfold sn_length. cbn [sn_net sn_bits] in *. destruct (is_v4 a); lia. Qed.

Lemma stores_address : forall m a, wf a -> exists b, stores (TBasic m BAddress) (DAddress a) b.
Proof.
  intros m a W. pose proof (address_string_length a W) as L.
  destruct (add_fixstr_holds (address_string a)) as [b [E H]]; [destruct L; lia|].
  exists b. eapply stores_scalar; [exact H| |].
  - intros cap. cbn [put]. now rewrite E.
  - intros buf V. cbn [decode]. rewrite V.
    replace ((length (address_string a) =? 4)%nat || (length (address_string a) =? 16)%nat) with true by (destruct L as [-> | ->]; reflexivity).
    now rewrite make_address_string.
Qed.

Lemma stores_subnet : forall m s, sn_wf s -> exists b, stores (TBasic m BSubnet) (DSubnet s) b.
Proof.
  intros m s W. pose proof (proj1 W) as Wa. pose proof (address_string_length _ Wa) as L.
  destruct (add_fixstr_holds (address_string (sn_net s))) as [b [E [Eb [Hn V]]]]; [destruct L; lia|].
  pose proof (sn_length_bound s W) as B.
  assert (U : holds (204 :: be 1 (sn_length s)) (OUint 1 (sn_length s))).
  { apply holds_uint; [reflexivity|]. exact B. }
  destruct U as [Ec [Hnc Vc]].
  exists (N.lor (N.land 159 240) 2 :: b ++ 204 :: be 1 (sn_length s)).
  split; [discriminate|]. split; [|split].
  - intros cap size R. cbn [put]. rewrite E. cbn [cats]. rewrite !add_scalar_some by (cbn; lia).
    rewrite app_nil_r. reflexivity.
  - intros [|f] r Lf; [cbn in Lf; lia|]. cbn [app next_f].
    change (format_of (N.lor (N.land 159 240) 2)) with (FFixArray 2). cbv iota.
    change (N.to_nat 2) with 2%nat. cbn [times]. cbn [length] in Lf. rewrite app_length in Lf.
    rewrite <- app_assoc, Hn by lia. rewrite Hnc by (cbn [length] in *; lia). reflexivity.
  - intros r. cbn [app decode visit].
    change (format_of (N.lor (N.land 159 240) 2)) with (FFixArray 2). cbv iota.
    rewrite <- app_assoc, V. unfold next. rewrite Hn by (rewrite app_length; lia).
    rewrite Vc. now rewrite make_address_string, sn_make_length.
Qed.

(** ** Sequences *)

Lemma cats_all : forall c fs bs size,
  Forall2 (fun (f : N -> option (list N * N)) b => forall s, s < c -> f s = Some (b, s + 1)) fs bs ->
  size + N.of_nat (length fs) <= c -> cats fs size = Some (concat bs, size + N.of_nat (length fs)).
Proof.
  intros c fs bs size H. revert size. induction H as [|f b fs bs Hf H IH]; intros size L.
  - cbn. f_equal. f_equal. lia.
  - cbn [cats length concat] in *. rewrite Hf by lia. rewrite IH by lia. f_equal. f_equal. lia.
Qed.

Definition skips (b : list N) : Prop := forall f r, (length b <= f)%nat -> next_f f (b ++ r) = Some r.

Lemma times_all : forall f bs r, Forall skips bs -> (length (concat bs) <= f)%nat ->
  times (next_f f) (length bs) (concat bs ++ r) = Some r.
Proof.
  intros f bs r H. induction H as [|b bs Hb H IH]; intros L; [reflexivity|].
  cbn [concat length times] in *. rewrite app_length in L. rewrite <- app_assoc, Hb by lia. apply IH. lia.
Qed.

Lemma nexts_skip : forall bs i r, Forall skips bs -> (i <= length bs)%nat ->
  nexts i (concat bs ++ r) = Some (concat (skipn i bs) ++ r).
Proof.
  unfold nexts. intros bs i r H. revert i. induction H as [|b bs Hb H IH]; intros i L.
  - destruct i; [reflexivity|cbn in L; lia].
  - destruct i as [|i]; [reflexivity|]. cbn [length skipn times concat] in *. unfold next at 1.
    rewrite <- app_assoc, Hb by (rewrite app_length; lia). apply IH. lia.
Qed.

Lemma all_some_map : forall A (f : nat -> option A) (xs : list A) s,
  (forall i, (i < length xs)%nat -> f (s + i)%nat = nth_error xs i) -> all_some (map f (seq s (length xs))) = Some xs.
Proof.
  intros A f. induction xs as [|x xs IH]; intros s H; [reflexivity|]. cbn [length seq map all_some].
  pose proof (H 0%nat ltac:(cbn; lia)) as H0. rewrite Nat.add_0_r in H0. rewrite H0. cbn [nth_error].
  rewrite IH; [reflexivity|]. intros i L. specialize (H (S i) ltac:(cbn; lia)).
  rewrite <- Nat.add_succ_comm in H. exact H.
Qed.

Lemma skipn_nth : forall A (l : list A) i x, nth_error l i = Some x -> skipn i l = x :: skipn (S i) l.
Proof.
  intros A. induction l as [|y l IH]; intros [|i] x H; try discriminate H.
  - cbn in H. injection H as ->. reflexivity.
  - cbn [nth_error] in H. cbn [skipn]. now apply IH.
Qed.

Lemma Forall2_nth : forall A B (R : A -> B -> Prop) xs ys i x, Forall2 R xs ys -> nth_error xs i = Some x ->
  exists y, nth_error ys i = Some y /\ R x y.
Proof.
  intros A B R xs ys i x H. revert i. induction H as [|a b xs ys Hab H IH]; intros [|i] E; try discriminate E.
  - cbn in E. injection E as <-. exists b. now split.
  - apply IH, E.
Qed.

Lemma Forall_exists2 : forall A B (R : A -> B -> Prop) xs, Forall (fun x => exists y, R x y) xs -> exists ys, Forall2 R xs ys.
Proof.
  intros A B R xs H. induction H as [|x xs [y Hy] H [ys IH]]; [exists []; constructor|].
  exists (y :: ys). now constructor.
Qed.

Lemma Forall2_len : forall A B (R : A -> B -> Prop) xs ys, Forall2 R xs ys -> length xs = length ys.
Proof. intros A B R xs ys H. induction H; [reflexivity|]. cbn [length]. congruence. Qed.
Lemma Forall2_left : forall A B (R : A -> B -> Prop) (P : B -> Prop) xs ys, Forall2 R xs ys -> (forall x y, R x y -> P y) -> Forall P ys.
Proof. intros A B R P xs ys H G. induction H; constructor; eauto. Qed.

(** Headers of arrays and maps. *)
Lemma array_kind_spec : forall n, n < 2 ^ 32 -> exists c h, array_kind n = Some (c, h) /\ n <= c /\
  h n <> [] /\ forall r, visit (h n ++ r) = Some (OArray false n r) /\ forall f, (0 < f)%nat ->
    next_f f (h n ++ r) = times (next_f (pred f)) (N.to_nat n) r.
Proof.
  intros n B. change (2 ^ 32) with 4294967296 in B. unfold array_kind.
  destruct (N.leb_spec n 15) as [H1|H1].
  { eexists _, _. split; [reflexivity|]. split; [exact H1|]. split; [discriminate|]. intros r.
    pose proof (format_fixarray n ltac:(lia)) as F. split.
    - cbn [app visit]. now rewrite F.
    - intros [|f] L; [lia|]. cbn [app next_f pred]. now rewrite F. }
  destruct (N.leb_spec n 65535) as [H2|H2].
  { eexists _, _. split; [reflexivity|]. split; [exact H2|]. split; [discriminate|]. intros r.
    assert (n < 256 ^ N.of_nat 2) by (change (256 ^ N.of_nat 2) with 65536; lia). split.
    - cbn [app visit]. change (format_of 220) with (FArray 2). cbv iota. now rewrite num_be.
    - intros [|f] L; [lia|]. cbn [app next_f pred]. change (format_of 220) with (FArray 2). cbv iota. now rewrite num_be. }
  destruct (N.leb_spec n 4294967295) as [H3|H3]; [|lia].
  eexists _, _. split; [reflexivity|]. split; [exact H3|]. split; [discriminate|]. intros r. split.
  - cbn [app visit]. change (format_of 221) with (FArray 4). cbv iota. now rewrite num_be.
  - intros [|f] L; [lia|]. cbn [app next_f pred]. change (format_of 221) with (FArray 4). cbv iota. now rewrite num_be.
Qed.

Lemma map_kind_spec : forall n, map_fits n -> exists c h, map_kind n = Some (c, h) /\ 2 * n <= c /\
  h n <> [] /\ forall r, visit (h n ++ r) = Some (OArray true (2 * n) r) /\ forall f, (0 < f)%nat ->
    next_f f (h n ++ r) = times (next_f (pred f)) (N.to_nat (2 * n)) r.
Proof.
  intros n B. unfold map_fits in B. change (2 ^ 31) with 2147483648 in B. unfold map_kind.
  assert (T : twice n = 2 * n) by (unfold twice; change (2 ^ 32) with 4294967296; rewrite N.mod_small; lia).
  destruct (N.leb_spec n 15) as [H1|H1].
  { eexists _, _. split; [reflexivity|]. split; [lia|]. split; [discriminate|]. intros r.
    pose proof (format_fixmap n ltac:(lia)) as F. split.
    - cbn [app visit]. now rewrite F, T.
    - intros [|f] L; [lia|]. cbn [app next_f pred]. now rewrite F, T. }
  destruct (N.leb_spec n 65535) as [H2|H2].
  { eexists _, _. split; [reflexivity|]. split; [lia|]. split; [discriminate|]. intros r.
    assert (n < 256 ^ N.of_nat 2) by (change (256 ^ N.of_nat 2) with 65536; lia). split.
    - cbn [app visit]. change (format_of 222) with (FMap 2). cbv iota. now rewrite num_be, T.
    - intros [|f] L; [lia|]. cbn [app next_f pred]. change (format_of 222) with (FMap 2). cbv iota. now rewrite num_be, T. }
  destruct (N.leb_spec n 4294967295) as [H3|H3]; [|lia].
  assert (n < 256 ^ N.of_nat 4) by (change (256 ^ N.of_nat 4) with 4294967296; lia).
  eexists _, _. split; [reflexivity|]. split; [lia|]. split; [discriminate|]. intros r. split.
  - cbn [app visit]. change (format_of 223) with (FMap 4). cbv iota. now rewrite num_be, T.
  - intros [|f] L; [lia|]. cbn [app next_f pred]. change (format_of 223) with (FMap 4). cbv iota. now rewrite num_be, T.
Qed.

Lemma stores_list : forall m v xs, N.of_nat (length xs) < 2 ^ 32 -> Forall (fun x => exists b, stores v x b) xs ->
  exists b, stores (TList m v) (DList xs) b.
Proof.
  intros m v xs L H. apply Forall_exists2 in H. destruct H as [bs H].
  destruct (array_kind_spec _ L) as [c [h [K [C [Eh S]]]]].
  assert (Sk : Forall skips bs) by (eapply Forall2_left; [exact H|]; intros x b X; exact (proj1 (proj2 (proj2 X)))).
  assert (Len : length xs = length bs) by (eapply Forall2_len; exact H).
  exists (h (N.of_nat (length xs)) ++ concat bs). split; [|split; [|split]].
  - intros E. apply app_eq_nil in E. now destruct E.
  - intros cap size R. cbn [put]. unfold put_array. rewrite K.
    erewrite (cats_all c _ bs); cbn [N.add]; [rewrite map_length| |rewrite map_length; lia].
    + destruct (N.ltb_spec c (N.of_nat (length xs))) as [X|X]; [lia|]. reflexivity.
    + clear - H. induction H as [|x b xs bs X H IH]; cbn [map]; constructor; [|exact IH].
      intros s Ls. apply X. exact Ls.
  - intros f r Lf. rewrite app_length in Lf. rewrite <- app_assoc.
    assert (length (h (N.of_nat (length xs))) > 0)%nat by (destruct (h (N.of_nat (length xs))); [now destruct Eh|cbn; lia]).
    destruct (S (concat bs ++ r)) as [_ S2]. rewrite S2 by lia. rewrite Nat2N.id, Len. apply times_all; [exact Sk|lia].
  - intros r. rewrite <- app_assoc. destruct (S (concat bs ++ r)) as [S1 _]. cbn [decode]. rewrite S1, Nat2N.id.
    rewrite (all_some_map _ _ xs 0); [reflexivity|].
    intros i Li. cbn [Nat.add]. rewrite nexts_skip by (auto; lia).
    destruct (nth_error xs i) as [x|] eqn:E; [|apply nth_error_None in E; lia].
    destruct (Forall2_nth _ _ _ _ _ _ _ H E) as [b [Eb X]].
    rewrite (skipn_nth _ _ _ _ Eb). cbn [concat]. rewrite <- app_assoc. apply X.
Qed.

Definition pair_bytes (q : list N * list N) : list (list N) := [fst q; snd q].
Lemma skipn_pairs : forall qs i, skipn (i * 2) (flat_map pair_bytes qs) = flat_map pair_bytes (skipn i qs).
Proof.
  induction qs as [|q qs IH]; intros [|i]; try reflexivity. cbn [Nat.mul Nat.add flat_map pair_bytes app skipn]. apply IH.
Qed.
Lemma flat_pairs_length : forall qs, length (flat_map pair_bytes qs) = (length qs * 2)%nat.
Proof. induction qs as [|q qs IH]; [reflexivity|]. cbn [flat_map length pair_bytes app]. rewrite IH. lia. Qed.

Lemma stores_map : forall m k v xs, map_fits (N.of_nat (length xs)) ->
  Forall (fun p => exists q, stores k (fst p) (fst q) /\ stores v (snd p) (snd q)) xs ->
  exists b, stores (TMap m k v) (DMap xs) b.
Proof.
  intros m k v xs L H. apply Forall_exists2 in H. destruct H as [qs H].
  destruct (map_kind_spec _ L) as [c [h [K [C [Eh S]]]]].
  set (bs := flat_map pair_bytes qs).
  assert (Sk : Forall skips bs).
  { unfold bs. clear - H. induction H as [|p q xs qs [X Y] H IH]; [constructor|]. cbn [flat_map pair_bytes app].
    constructor; [exact (proj1 (proj2 (proj2 X)))|]. constructor; [exact (proj1 (proj2 (proj2 Y)))|]. exact IH. }
  assert (Len : length xs = length qs) by (eapply Forall2_len; exact H).
  assert (Lbs : length bs = (length xs * 2)%nat) by (unfold bs; rewrite flat_pairs_length; lia).
  assert (Lf2 : forall c', length (flat_map (fun p : data * data => match p with (a, b) => [put a (Some c'); put b (Some c')] end) xs) = (length xs * 2)%nat).
  { intros c'. clear. induction xs as [|[a b] xs IH]; [reflexivity|]. cbn [flat_map app length]. rewrite IH. lia. }
  exists (h (N.of_nat (length xs)) ++ concat bs). split; [|split; [|split]].
  - intros E. apply app_eq_nil in E. now destruct E.
  - intros cap size R. cbn [put]. unfold put_map. rewrite K.
    erewrite (cats_all c _ bs); cbn [N.add]; [rewrite Lf2| |rewrite Lf2; lia].
    + destruct (N.ltb_spec c (N.of_nat (length xs * 2))) as [X|X]; [lia|].
      replace (N.of_nat (length xs * 2) mod 2) with 0 by (rewrite Nat2N.inj_mul, N.mod_mul; lia).
      replace (N.of_nat (length xs * 2) / 2) with (N.of_nat (length xs)) by (rewrite Nat2N.inj_mul, N.div_mul; lia).
      reflexivity.
    + unfold bs. clear - H. induction H as [|[a b] [a' b'] xs qs [X Y] H IH]; cbn [flat_map pair_bytes app fst snd] in *; [constructor|].
      constructor; [intros s Ls; apply X; exact Ls|]. constructor; [intros s Ls; apply Y; exact Ls|]. exact IH.
  - intros f r Lf. rewrite app_length in Lf. rewrite <- app_assoc.
    assert (length (h (N.of_nat (length xs))) > 0)%nat by (destruct (h (N.of_nat (length xs))); [now destruct Eh|cbn; lia]).
    destruct (S (concat bs ++ r)) as [_ S2]. rewrite S2 by lia.
    replace (N.to_nat (2 * N.of_nat (length xs))) with (length bs) by lia. apply times_all; [exact Sk|lia].
  - intros r. rewrite <- app_assoc. destruct (S (concat bs ++ r)) as [S1 _]. cbn [decode]. rewrite S1.
    replace (2 * N.of_nat (length xs) / 2) with (N.of_nat (length xs)) by (rewrite N.mul_comm, N.div_mul; lia).
    rewrite Nat2N.id. rewrite (all_some_map _ _ xs 0); [reflexivity|].
    intros i Li. cbn [Nat.add]. rewrite nexts_skip by (auto; lia).
    destruct (nth_error xs i) as [[a b]|] eqn:E; [|apply nth_error_None in E; lia].
    destruct (Forall2_nth _ _ _ _ _ _ _ H E) as [[a' b'] [Eb [X Y]]]. cbn [fst snd] in *.
    unfold bs. rewrite skipn_pairs, (skipn_nth _ _ _ _ Eb). cbn [flat_map pair_bytes app fst snd concat].
    rewrite <- app_assoc. destruct X as [_ [_ [X2 X3]]]. rewrite X3. unfold next. rewrite X2 by (rewrite app_length; lia).
    rewrite <- app_assoc. destruct Y as [_ [_ [_ Y3]]]. now rewrite Y3.
Qed.

Lemma fits_stores : forall t x, fits t x -> exists b, stores t x b.
Proof.
  induction t as [|m|m b|m fs|m v IH|m k v IHk IHv|m fs IH|m v IH] using ty_rect'; intros x [-> | F];
    try (exists [192]; apply stores_none); try (cbn in F; contradiction).
  - destruct b, x; try contradiction F.
    + eexists. eapply (stores_scalar _ _ _ (OBool b)).
      2:{ intros cap. reflexivity. }
      * destruct b; apply holds_one; intros; reflexivity.
      * intros buf V. cbn [decode]. now rewrite V.
    + eexists. eapply stores_scalar; [exact (put_integer_holds _ F)|reflexivity|].
      intros buf V. cbn [decode]. now rewrite V.
    + destruct (put_unsigned_holds _ F) as [k [H _]]. eexists. eapply stores_scalar; [exact H|reflexivity|].
      intros buf V. cbn [decode]. now rewrite V.
    + eexists. eapply stores_scalar; [exact (put_double_holds _ F)|reflexivity|].
      intros buf V. cbn [decode]. now rewrite V.
    + destruct (put_signed_holds _ F) as [o [H [No S]]]. eexists. eapply stores_scalar; [exact H|reflexivity|].
      intros buf V. cbn [decode]. rewrite V, S. destruct o; try reflexivity. now destruct No.
    + destruct (put_signed_holds _ F) as [o [H [No S]]]. eexists. eapply stores_scalar; [exact H|reflexivity|].
      intros buf V. cbn [decode]. rewrite V, S. destruct o; try reflexivity. now destruct No.
    + destruct (put_string_holds _ F) as [c [E H]]. exists c. eapply stores_scalar; [exact H| |].
      * intros cap. cbn [put]. now rewrite E.
      * intros buf V. cbn [decode]. now rewrite V.
    + destruct (put_string_holds _ F) as [c [E H]]. exists c. eapply stores_scalar; [exact H| |].
      * intros cap. cbn [put]. now rewrite E.
      * intros buf V. cbn [decode]. now rewrite V.
    + now apply stores_address.
    + now apply stores_subnet.
  - destruct F as [n [-> B]]. destruct (put_unsigned_holds n) as [k [H K]]; [change (2 ^ 64) with 18446744073709551616; lia|].
    rewrite (K B) in H. eexists. eapply stores_scalar; [exact H|reflexivity|].
    intros buf V. cbn [decode]. now rewrite V.
  - destruct F as [xs [-> [L F]]]. apply stores_list; [exact L|]. eapply Forall_impl; [|exact F]. exact IH.
  - destruct F as [xs [-> [L F]]]. apply stores_map; [exact L|]. eapply Forall_impl; [|exact F].
    intros [a b] [Ha Hb]. destruct (IHk _ Ha) as [a' A]. destruct (IHv _ Hb) as [b' B]. now exists (a', b').
  - destruct (IH x F) as [b [E [P [S D]]]]. exists b. split; [exact E|]. split; [exact P|]. split; [exact S|].
    intros r. specialize (D r). cbn [decode]. destruct (visit (b ++ r)) as [o|] eqn:V; [|destruct v; cbn [decode] in D; rewrite V in D; discriminate D].
    destruct o; try exact D. destruct v; cbn [decode] in D; rewrite V in D; exact D.
Qed.

(** ** What does not fit *)

(** Whatever is added counts at least once. *)
Lemma add_scalar_size : forall cap b size r s, add_scalar cap b size = Some (r, s) -> size < s.
Proof.
  intros [c|] [b|] size r s; cbn [add_scalar]; try discriminate.
  - destruct (c <=? size); [discriminate|]. intros E. injection E as _ <-. lia.
  - intros E. injection E as _ <-. lia.
Qed.
Lemma cats_size : forall fs size b s,
  Forall (fun f : N -> option (list N * N) => forall z c t, f z = Some (c, t) -> z < t) fs ->
  cats fs size = Some (b, s) -> size + N.of_nat (length fs) <= s.
Proof.
  induction fs as [|f fs IH]; intros size b s H E.
  - cbn in E. injection E as _ <-. cbn. lia.
  - inversion H as [|? ? Hf H']; subst. cbn [cats] in E. destruct (f size) as [[c t]|] eqn:F; [|discriminate E].
    destruct (cats fs t) as [[c' t']|] eqn:G; [|discriminate E]. injection E as _ <-.
    apply Hf in F. apply (IH _ _ _ H') in G. cbn [length]. lia.
Qed.
Lemma put_size : forall x cap size b s, put x cap size = Some (b, s) -> size < s.
Proof.
  induction x as [x Hx|xs IH|xs IH|xs IH] using DataProofs.data_rect'; intros cap size b s E.
  - destruct x; try contradiction Hx; cbn [put] in E; try (eapply add_scalar_size; exact E).
    destruct (cats _ 0) as [[c t]|]; [|discriminate E]. injection E as _ <-. lia.
  - cbn [put] in E. unfold put_array in E. destruct (array_kind _) as [[c h]|]; [|discriminate E].
    destruct (cats _ 0) as [[d t]|]; [|discriminate E]. destruct (c <? t); [discriminate E|]. injection E as _ <-. lia.
  - cbn [put] in E. unfold put_map in E. destruct (map_kind _) as [[c h]|]; [|discriminate E].
    destruct (cats _ 0) as [[d t]|]; [|discriminate E]. destruct (c <? t); [discriminate E|].
    destruct (negb _); [discriminate E|]. injection E as _ <-. lia.
  - cbn [put] in E. destruct (cats _ size) as [[d t]|] eqn:C; [|discriminate E].
    destruct xs as [|[n x] xs]; [cbn in C; injection C as <- <-; discriminate E|].
    assert (t = s) by (destruct d; [discriminate E|]; now injection E as _ <-). subst t.
    apply cats_size in C; [cbn [map length] in C; lia|].
    apply Forall_forall. intros f Hf. apply in_map_iff in Hf. destruct Hf as [[n' y] [<- Hy]].
    rewrite Forall_forall in IH. intros z c t Ec. eapply (IH _ Hy). exact Ec.
Qed.

Lemma put_map_fails : forall xs cap size, ~ map_fits (N.of_nat (length xs)) -> put (DMap xs) cap size = None.
Proof.
  intros xs cap size L. cbn [put]. unfold put_map. destruct (map_kind _) as [[c h]|] eqn:K; [|reflexivity].
  match goal with |- context [cats ?l 0] => destruct (cats l 0) as [[d t]|] eqn:C end; [|reflexivity].
  assert (G : c < t).
  { apply cats_size in C.
    - assert (Lf : forall c', length (flat_map (fun p : data * data => match p with (a, b) => [put a (Some c'); put b (Some c')] end) xs) = (length xs * 2)%nat).
      { intros c'. clear. induction xs as [|[a b] xs IH]; [reflexivity|]. cbn [flat_map app length]. rewrite IH. lia. }
      rewrite Lf in C. unfold map_fits in L. change (2 ^ 31) with 2147483648 in L. unfold map_kind in K.
      destruct (N.leb_spec (N.of_nat (length xs)) 15); [injection K as <- _; lia|].
      destruct (N.leb_spec (N.of_nat (length xs)) 65535); [injection K as <- _; lia|].
      destruct (N.leb_spec (N.of_nat (length xs)) 4294967295); [injection K as <- _; lia|discriminate K].
    - apply Forall_forall. intros f Hf. apply in_flat_map in Hf. destruct Hf as [[a b] [_ [<- | [<- | [] ] ] ] ];
        intros z e s E; eapply put_size; exact E. }
  destruct (N.ltb_spec c t) as [X|X]; [reflexivity|lia].
Qed.

(** ** Times *)

Lemma lor_shift : forall a b, (0 <= b < 2 ^ 34)%Z -> Z.lor (Z.shiftl a 34) b = (a * 2 ^ 34 + b)%Z.
Proof.
  intros a b B.
  assert (L : Z.land (Z.shiftl a 34) b = 0%Z).
  { apply Z.bits_inj'. intros i Hi. rewrite Z.land_spec, Z.bits_0.
    destruct (Z_lt_le_dec i 34) as [H|H].
    - now rewrite Z.shiftl_spec_low by lia.
    - assert (T : Z.testbit b i = false).
      { apply Z.testbit_false; [lia|]. replace (b / 2 ^ i)%Z with 0%Z; [reflexivity|].
        symmetry. apply Z.div_small. split; [lia|]. eapply Z.lt_le_trans; [apply B|]. apply Z.pow_le_mono_r; lia. }
      rewrite T. apply andb_false_r. }
  rewrite <- Z.lxor_lor by exact L. rewrite <- Z.add_nocarry_lxor by exact L. now rewrite Z.shiftl_mul_pow2 by lia.
Qed.

Lemma land_high : forall d, N.land d 18446744069414584320 = ((d / 2 ^ 32) mod 2 ^ 32) * 2 ^ 32.
Proof.
  intros d. change 18446744069414584320 with (N.shiftl (N.ones 32) 32).
  replace (N.land d (N.shiftl (N.ones 32) 32)) with (N.shiftl (N.land (N.shiftr d 32) (N.ones 32)) 32).
  - now rewrite N.land_ones, N.shiftr_div_pow2, N.shiftl_mul_pow2.
  - apply N.bits_inj. intros i. rewrite N.land_spec. destruct (N.ltb_spec i 32) as [H|H].
    + rewrite !N.shiftl_spec_low by exact H. now rewrite andb_false_r.
    + rewrite !N.shiftl_spec_high' by exact H. rewrite N.land_spec, N.shiftr_spec'. f_equal. f_equal. lia.
Qed.

(** The times the encoding gives back. *)
Definition time_fits (t : Z) : Prop :=
  int64 t /\
  ((0 <= t /\ t mod 1000000000 <> 0) \/
   (t mod 1000000000 = 0 /\ ~ (2 ^ 31 <= t / 1000000000 < 2 ^ 32)))%Z.

Lemma unsigned_small : forall k z, (0 <= z < 256 ^ Z.of_nat k)%Z -> unsigned k z = Z.to_N z.
Proof. intros k z B. unfold unsigned. now rewrite Z.mod_small. Qed.

Lemma holds_ts32 : forall n, n < 2 ^ 31 -> holds (214 :: 255 :: be 4 n) (OTime (Z.of_N n * 1000000000)).
Proof.
  intros n B. assert (B4 : n < 256 ^ N.of_nat 4) by (change (256 ^ N.of_nat 4) with 4294967296; change (2 ^ 31) with 2147483648 in B; lia).
  split; [discriminate|]. split.
  - intros [|f] r L; [cbn in L; lia|]. cbn [app next_f]. change (format_of 214) with (FFixExt 4). cbv iota.
    change (255 :: be 4 n ++ r) with ((255 :: be 4 n) ++ r). apply drop_app'. cbn [length]. now rewrite be_length.
  - intros r. cbn [app visit]. change (format_of 214) with (FFixExt 4). cbv iota.
    rewrite take_app' by (now rewrite be_length). unfold visit_ext. cbn [N.eqb Pos.eqb]. rewrite be_length.
    rewrite of_be_small by exact B4. unfold signed. change (256 ^ N.of_nat 4 / 2) with (2 ^ 31).
    destruct (N.ltb_spec n (2 ^ 31)) as [_|X]; [reflexivity|]. exfalso. exact (N.lt_irrefl _ (N.lt_le_trans _ _ _ B X)).
Qed.

Lemma holds_ts64 : forall n, n < 2 ^ 64 ->
  holds (215 :: 255 :: be 8 n) (OTime (Z.of_N (n mod 2 ^ 34) * 1000000000 + Z.of_N (n / 2 ^ 34))).
Proof.
  intros n B. split; [discriminate|]. split.
  - intros [|f] r L; [cbn in L; lia|]. cbn [app next_f]. change (format_of 215) with (FFixExt 8). cbv iota.
    change (255 :: be 8 n ++ r) with ((255 :: be 8 n) ++ r). apply drop_app'. cbn [length]. now rewrite be_length.
  - intros r. cbn [app visit]. change (format_of 215) with (FFixExt 8). cbv iota.
    rewrite take_app' by (now rewrite be_length). unfold visit_ext. cbn [N.eqb Pos.eqb]. rewrite be_length.
    rewrite of_be_small by exact B. change 17179869183 with (N.ones 34). rewrite N.land_ones, N.shiftr_div_pow2. reflexivity.
Qed.

Lemma holds_ts96 : forall a b, a < 2 ^ 32 -> b < 2 ^ 64 ->
  holds (199 :: 12 :: 255 :: be 4 a ++ be 8 b) (OTime (signed 8 b * 1000000000 + Z.of_N a)).
Proof.
  intros a b A B. assert (L12 : length (be 4 a ++ be 8 b) = 12%nat) by (rewrite app_length, !be_length; reflexivity).
  split; [discriminate|]. split.
  - intros [|f] r L; [cbn in L; lia|]. cbn [app next_f]. change (format_of 199) with (FExt 1). cbv iota.
    change (12 :: 255 :: (be 4 a ++ be 8 b) ++ r) with (be 1 12 ++ (255 :: be 4 a ++ be 8 b) ++ r).
    rewrite num_be by reflexivity. apply drop_app'. cbn [length]. rewrite L12. reflexivity.
  - intros r. cbn [app visit]. change (format_of 199) with (FExt 1). cbv iota.
    change (12 :: 255 :: (be 4 a ++ be 8 b) ++ r) with (be 1 12 ++ (255 :: (be 4 a ++ be 8 b) ++ r)).
    rewrite num_be by reflexivity. rewrite take_app' by (now rewrite L12). unfold visit_ext. cbn [N.eqb Pos.eqb]. rewrite L12.
    assert (F4 : firstn 4 (be 4 a ++ be 8 b) = be 4 a).
    { rewrite <- (be_length 4 a) at 1. rewrite firstn_app, firstn_all, Nat.sub_diag. cbn [firstn]. apply app_nil_r. }
    assert (S4 : skipn 4 (be 4 a ++ be 8 b) = be 8 b).
    { rewrite <- (be_length 4 a) at 1. now rewrite skipn_app, skipn_all, Nat.sub_diag. }
    rewrite F4, S4, !of_be_small; [reflexivity|exact A|exact B].
Qed.

Lemma add_time_holds : forall t, time_fits t -> holds (add_time t) (OTime t).
Proof.
  intros t [I64 F]. unfold int64 in I64. unfold add_time.
  set (secs := Z.quot t 1000000000). set (ns := Z.rem t 1000000000). cbv zeta.
  pose proof (Z.quot_rem' t 1000000000) as QR. fold secs ns in QR.
  assert (NB : (Z.abs ns < 1000000000)%Z) by (pose proof (Z.rem_bound_abs t 1000000000 ltac:(lia)); lia).
  change (2 ^ 63)%Z with 9223372036854775808%Z in I64. change (2 ^ 31)%Z with 2147483648%Z in F. change (2 ^ 32)%Z with 4294967296%Z in F.
  assert (SB : (- 17179869184 < secs < 17179869184)%Z) by lia.
  assert (Sign : (0 <= t -> 0 <= ns /\ 0 <= secs)%Z).
  { intros H. split; [apply Z.rem_nonneg; lia|]. apply Z.quot_pos; lia. }
  assert (Whole : (t mod 1000000000 = 0 -> ns = 0)%Z).
  { intros H. apply Z.mod_divide in H; [|lia]. apply Z.rem_divide; [lia|exact H]. }
  destruct (Z_lt_le_dec secs 0) as [Neg|Pos].
  - assert (Sh : (Z.shiftr secs 34 =? 0)%Z = false).
    { apply Z.eqb_neq. rewrite Z.shiftr_div_pow2 by lia. change (2 ^ 34)%Z with 17179869184%Z.
      assert (secs / 17179869184 < 0)%Z by (apply Z.div_lt_upper_bound; lia). lia. }
    rewrite Sh. destruct F as [[P _]|[W _]]; [destruct (Sign P); lia|].
    specialize (Whole W). rewrite Whole in *.
    replace (OTime t) with (OTime (signed 8 (unsigned 8 secs) * 1000000000 + Z.of_N (unsigned 4 0))).
    + apply holds_ts96; apply unsigned_bound.
    + f_equal. rewrite signed_unsigned; [|lia|change (256 ^ Z.of_nat 8 / 2)%Z with 9223372036854775808%Z; lia].
      change (unsigned 4 0) with 0. lia.
  - assert (Sh : (Z.shiftr secs 34 =? 0)%Z = true).
    { apply Z.eqb_eq. rewrite Z.shiftr_div_pow2 by lia. apply Z.div_small. change (2 ^ 34)%Z with 17179869184%Z. lia. }
    rewrite Sh, lor_shift by (change (2 ^ 34)%Z with 17179869184%Z; lia). change (2 ^ 34)%Z with 17179869184%Z.
    assert (Nn : (0 <= ns)%Z). { destruct F as [[P _]|[W _]]; [now apply Sign|]. specialize (Whole W). lia. }
    rewrite unsigned_small by (change (256 ^ Z.of_nat 8)%Z with 18446744073709551616%Z; lia).
    set (d := Z.to_N (ns * 17179869184 + secs)).
    assert (DB : d < 18446744073709551616) by (unfold d; lia).
    rewrite land_high. change (2 ^ 32) with 4294967296. change (2 ^ 34) with 17179869184.
    assert (Dv : d / 4294967296 < 4294967296) by (apply N.div_lt_upper_bound; lia).
    rewrite N.mod_small by exact Dv.
    destruct (N.eqb_spec (d / 4294967296 * 4294967296) 0) as [Z0|Z0].
    + assert (Dl : d < 4294967296).
      { destruct (N.ltb_spec d 4294967296) as [X|X]; [exact X|]. exfalso.
        assert (1 <= d / 4294967296) by (apply N.div_le_lower_bound; lia). lia. }
      assert (Ns0 : ns = 0%Z) by (unfold d in Dl; lia).
      rewrite N.mod_small by exact Dl.
      destruct F as [[P Wn]|[W Nr]].
      { exfalso. apply Wn. rewrite Ns0 in QR. rewrite QR, Z.add_0_r, Z.mul_comm. apply Z.mod_mul. lia. }
      assert (Ts : (t / 1000000000 = secs)%Z).
      { rewrite QR, Ns0, Z.add_0_r, Z.mul_comm. apply Z.div_mul. lia. }
      rewrite Ts in Nr. unfold d in Dl.
      replace (OTime t) with (OTime (Z.of_N d * 1000000000)) by (f_equal; unfold d; lia).
      apply holds_ts32. change (2 ^ 31) with 2147483648. unfold d. lia.
    + replace (OTime t) with (OTime (Z.of_N (d mod 17179869184) * 1000000000 + Z.of_N (d / 17179869184))).
      { apply (holds_ts64 d DB). }
      f_equal.
      assert (E1 : d = Z.to_N ns * 17179869184 + Z.to_N secs) by (unfold d; lia).
      assert (E2 : d / 17179869184 = Z.to_N ns) by (symmetry; apply (N.div_unique d 17179869184 _ (Z.to_N secs)); lia).
      assert (E3 : d mod 17179869184 = Z.to_N secs) by (symmetry; apply (N.mod_unique d 17179869184 (Z.to_N ns)); lia).
      rewrite E2, E3. lia.
Qed.

(** ** Table slices *)

(** A row for the columns of a slice: each value is accepted and can be stored. *)
Definition column_fits (t : ty) (x : data) : Prop := fits t x /\ type_check t x = true.

Lemma add_rest : forall ts' ts xs b, Forall2 column_fits ts' xs -> ts <> [] ->
  b_column b = (length ts mod length (ts ++ ts'))%nat ->
  exists bs, length bs = length xs /\ (forall i t x, nth_error ts' i = Some t -> nth_error xs i = Some x -> exists c, nth_error bs i = Some c /\ stores t x c) /\
    add_all (ts ++ ts') xs b = Some (repeat true (length xs),
      {| b_column := 0; b_offsets := b_offsets b; b_data := b_data b ++ concat bs |}).
Proof.
  induction ts' as [|t ts' IH]; intros ts xs b H N0 C; inversion H as [|? x ? xs' [F T] H']; subst.
  - exists []. split; [reflexivity|]. split; [intros [|i] t x E; discriminate E|].
    rewrite app_nil_r, Nat.mod_same in C by (destruct ts; [now destruct N0|discriminate]).
    cbn [add_all length repeat concat]. rewrite app_nil_r. destruct b as [bc bo bd]. cbn in *. now subst bc.
  - assert (Lt : (0 < length ts < length (ts ++ t :: ts'))%nat).
    { rewrite app_length. cbn [length]. destruct ts; [now destruct N0|]. cbn [length]. lia. }
    rewrite Nat.mod_small in C by lia.
    destruct (fits_stores t x F) as [c S].
    set (b' := {| b_column := (b_column b + 1) mod length (ts ++ t :: ts'); b_offsets := b_offsets b; b_data := b_data b ++ c |}).
    assert (A : add (ts ++ t :: ts') x b = Some (true, b')).
    { unfold add. rewrite C. rewrite nth_error_app2, Nat.sub_diag by lia. cbn [nth_error]. rewrite T. cbn [negb].
      destruct S as [_ [P _]]. rewrite (P None 0 Logic.I).
      destruct (Nat.eqb_spec (length ts) 0) as [X|X]; [lia|]. unfold b'. rewrite C. reflexivity. }
    assert (Eq : ts ++ t :: ts' = (ts ++ [t]) ++ ts') by (now rewrite <- app_assoc).
    destruct (IH (ts ++ [t]) xs' b' H') as [bs [Lb [Hb G]]].
    { destruct ts; discriminate. }
    { unfold b'. cbn [b_column]. rewrite C, <- Eq, (app_length ts [t]). reflexivity. }
    exists (c :: bs). split; [cbn [length]; congruence|]. split.
    + intros [|i] t0 x0 E1 E2; cbn [nth_error] in *.
      * injection E1 as <-. injection E2 as <-. exists c. now split.
      * eapply Hb; eassumption.
    + cbn [add_all length repeat concat]. rewrite A, Eq, G. unfold b'. cbn [b_offsets b_data]. now rewrite <- app_assoc.
Qed.

Definition row_stores (cols : list ty) (xs : list data) (bs : list (list N)) : Prop :=
  length bs = length cols /\
  forall i t x, nth_error cols i = Some t -> nth_error xs i = Some x -> exists c, nth_error bs i = Some c /\ stores t x c.

Lemma add_row : forall cols xs b, cols <> [] -> Forall2 column_fits cols xs -> b_column b = 0%nat ->
  exists bs, row_stores cols xs bs /\
    add_all cols xs b = Some (repeat true (length xs),
      {| b_column := 0; b_offsets := b_offsets b ++ [length (b_data b)]; b_data := b_data b ++ concat bs |}).
Proof.
  intros cols xs b N0 H C. destruct H as [|t x ts xs [F T] H]; [now destruct N0|].
  destruct (fits_stores t x F) as [c S].
  set (b' := {| b_column := (b_column b + 1) mod length ([t] ++ ts); b_offsets := b_offsets b ++ [length (b_data b)]; b_data := b_data b ++ c |}).
  assert (A : add ([t] ++ ts) x b = Some (true, b')).
  { unfold add. rewrite C. cbn [app nth_error]. rewrite T. cbn [negb]. destruct S as [_ [P _]]. rewrite (P None 0 Logic.I).
    cbn [Nat.eqb]. unfold b'. rewrite C. reflexivity. }
  destruct (add_rest ts [t] xs b' H) as [bs [Lb [Hb G]]]; [discriminate| |].
  { unfold b'. cbn [b_column]. now rewrite C. }
  exists (c :: bs). split.
  - split; [cbn [length]; rewrite Lb; f_equal; symmetry; eapply Forall2_len; exact H|].
    intros [|i] t0 x0 E1 E2; cbn [nth_error] in *.
    + injection E1 as <-. injection E2 as <-. exists c. now split.
    + eapply Hb; eassumption.
  - change (t :: ts) with ([t] ++ ts). cbn [add_all length repeat concat]. rewrite A, G. unfold b'. cbn [b_offsets b_data].
    now rewrite <- app_assoc.
Qed.

(** Where the rows start. *)
Fixpoint starts (o : nat) (bss : list (list (list N))) : list nat :=
  match bss with [] => [] | bs :: bss' => o :: starts (o + length (concat bs)) bss' end.

Lemma add_all_app : forall cols xs ys b rs b', add_all cols xs b = Some (rs, b') ->
  add_all cols (xs ++ ys) b = match add_all cols ys b' with None => None | Some (rs', b'') => Some (rs ++ rs', b'') end.
Proof.
  intros cols. induction xs as [|x xs IH]; intros ys b rs b' E.
  - cbn in E. injection E as <- <-. cbn [app]. destruct (add_all cols ys b) as [[r c]|]; reflexivity.
  - cbn [add_all app] in *. destruct (add cols x b) as [[r c]|]; [|discriminate E].
    destruct (add_all cols xs c) as [[r' c']|] eqn:A; [|discriminate E]. injection E as <- <-.
    rewrite (IH ys _ _ _ A). destruct (add_all cols ys c') as [[r2 c2]|]; reflexivity.
Qed.

Lemma add_rows : forall cols rs b, cols <> [] -> Forall (Forall2 column_fits cols) rs -> b_column b = 0%nat ->
  exists bss, Forall2 (row_stores cols) rs bss /\
    add_all cols (concat rs) b = Some (repeat true (length (concat rs)),
      {| b_column := 0; b_offsets := b_offsets b ++ starts (length (b_data b)) bss; b_data := b_data b ++ concat (map (@concat N) bss) |}).
Proof.
  intros cols rs b N0 H. revert b. induction H as [|xs rs Hx H IH]; intros b C.
  - exists []. split; [constructor|]. cbn. rewrite !app_nil_r. destruct b as [bc bo bd]. cbn in C. now subst bc.
  - destruct (add_row cols xs b N0 Hx C) as [bs [R A]].
    destruct (IH {| b_column := 0; b_offsets := b_offsets b ++ [length (b_data b)]; b_data := b_data b ++ concat bs |} eq_refl) as [bss [R' G]].
    exists (bs :: bss). split; [now constructor|].
    cbn [concat]. rewrite (add_all_app _ _ _ _ _ _ A), G. cbn [b_offsets b_data map concat starts].
    rewrite <- !app_assoc, !app_length, repeat_app. reflexivity.
Qed.

Lemma starts_length : forall bss o, length (starts o bss) = length bss.
Proof. induction bss as [|bs bss IH]; intros o; [reflexivity|]. cbn [starts length]. now rewrite IH. Qed.

Lemma starts_nth : forall bss o i bs, nth_error bss i = Some bs ->
  exists p, nth_error (starts o bss) i = Some (o + p)%nat /\
    skipn p (concat (map (@concat N) bss)) = concat bs ++ concat (map (@concat N) (skipn (S i) bss)).
Proof.
  induction bss as [|c bss IH]; intros o [|i] bs E; try discriminate E; cbn [nth_error starts map concat skipn] in *.
  - injection E as ->. exists 0%nat. split; [f_equal; lia|]. reflexivity.
  - destruct (IH (o + length (concat c))%nat i bs E) as [p [P S]]. exists (length (concat c) + p)%nat.
    split; [rewrite P; f_equal; lia|].
    rewrite skipn_app. replace (length (concat c) + p - length (concat c))%nat with p by lia. rewrite S.
    rewrite skipn_all2 by lia. reflexivity.
Qed.

Lemma slice_round_trip : forall cols rs, cols <> [] -> Forall (Forall2 column_fits cols) rs ->
  exists b s, add_all cols (concat rs) empty_builder = Some (repeat true (length (concat rs)), b) /\
    finish cols b = Some s /\ rows s = length rs /\
    forall r c xs x, nth_error rs r = Some xs -> nth_error xs c = Some x -> at_ s r c = Some x.
Proof.
  intros cols rs N0 H. destruct (add_rows cols rs empty_builder N0 H eq_refl) as [bss [R A]].
  eexists _, _. split; [exact A|]. split; [reflexivity|]. cbn [b_offsets b_data empty_builder app length].
  split; [unfold rows; cbn [s_offsets]; rewrite starts_length; symmetry; eapply Forall2_len; exact R|].
  intros r c xs x Er Ec. unfold at_. cbn [s_offsets s_cols s_data].
  destruct (Forall2_nth _ _ _ _ _ _ _ R Er) as [bs [Eb [Lb Hb]]].
  destruct (starts_nth bss 0 r bs Eb) as [p [P S]]. rewrite P. cbn [Nat.add].
  assert (Fx : Forall2 column_fits cols xs).
  { rewrite Forall_forall in H. apply H. eapply nth_error_In. exact Er. }
  destruct (nth_error cols c) as [t|] eqn:Et.
  2:{ apply nth_error_None in Et. apply Forall2_len in Fx. rewrite Fx in Et. apply nth_error_None in Et. congruence. }
  destruct (Hb c t x Et Ec) as [y [Ey Sy]].
  assert (Sk : Forall skips bs).
  { apply Forall_forall. intros z Hz. apply In_nth_error in Hz. destruct Hz as [i Ei].
    assert (Li : (i < length cols)%nat) by (rewrite <- Lb; apply nth_error_Some; congruence).
    destruct (nth_error cols i) as [t'|] eqn:Et'; [|apply nth_error_None in Et'; lia].
    destruct (Forall2_nth _ _ _ _ _ _ _ Fx Et') as [x' [Ex' _]].
    destruct (Hb i t' x' Et' Ex') as [z' [Ez' Sz']]. rewrite Ei in Ez'. injection Ez' as <-.
    exact (proj1 (proj2 (proj2 Sz'))). }
  assert (Lp : (p < length (concat (map (@concat N) bss)))%nat).
  { destruct (Nat.lt_ge_cases p (length (concat (map (@concat N) bss)))) as [X|X]; [exact X|]. exfalso.
    rewrite skipn_all2 in S by exact X. symmetry in S. apply app_eq_nil in S. destruct S as [S _].
    apply in_split in Ey as [l1 [l2 E]] || (apply nth_error_In in Ey; apply in_split in Ey; destruct Ey as [l1 [l2 E]]).
    subst bs. rewrite concat_app in S. apply app_eq_nil in S. destruct S as [_ S]. cbn [concat] in S.
    apply app_eq_nil in S. destruct S as [S _]. exact (proj1 Sy S). }
  destruct (Nat.ltb_spec p (length (concat (map (@concat N) bss)))) as [_|X]; [|lia].
  assert (Lc : (c < length bs)%nat) by (apply nth_error_Some; congruence).
  rewrite S, nexts_skip by (auto; lia). rewrite (skipn_nth _ _ _ _ Ey). cbn [concat]. rewrite <- app_assoc. apply Sy.
Qed.
