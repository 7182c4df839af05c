(** Proofs about the PCAP reader and writer and community identifiers. *)
From Coq Require Import List NArith ZArith Bool Arith Lia.
From Coq Require Import ZifyBool ZifyNat ZifyN.
From Verif Require Import AddressModel AddressProofs Base64Model PcapModel.
Import ListNotations.
Local Open Scope N_scope.
Local Notation length := List.length.

(** ** Order of addresses *)
Lemma ltb_irrefl : forall a, bytes_ltb a a = false.
Proof. induction a as [|x a IH]; [reflexivity|]. cbn [bytes_ltb]. now rewrite N.ltb_irrefl. Qed.
Lemma ltb_total : forall a b, length a = length b -> bytes_ltb a b = false -> bytes_ltb b a = false -> a = b.
Proof.
  induction a as [|x a IH]; intros [|y b] L A B; try discriminate; [reflexivity|]. cbn [bytes_ltb] in A, B.
  destruct (N.ltb_spec x y); [discriminate|]. destruct (N.ltb_spec y x); [discriminate|]. f_equal; [lia|]. apply IH; [now injection L|assumption|assumption].
Qed.
Lemma ltb_asym : forall a b, bytes_ltb a b = true -> bytes_ltb b a = false.
Proof.
  induction a as [|x a IH]; intros [|y b] H; try reflexivity; try discriminate. cbn [bytes_ltb] in *.
  destruct (N.ltb_spec x y); destruct (N.ltb_spec y x); try lia; try reflexivity; try discriminate. all: now apply IH.
Qed.

(** ** Community identifiers *)
Definition turned (f : flow) : flow := {| f_src := f_dst f; f_dst := f_src f; f_sport := f_dport f; f_dport := f_sport f; f_proto := f_proto f |}.

(** The hashed bytes for given ports. *)
Definition packed (a b : address) (p : N) (x y : N) : list N := addr_bytes a ++ addr_bytes b ++ [p; 0] ++ be16 x ++ be16 y.
Definition either (a b : address) (p : N) (x y : N) : list N :=
  if bytes_ltb a b || (bytes_eqb a b && (x <? y)) then packed a b p x y else packed b a p y x.
Lemma either_turn : forall a b p x y, length a = length b -> either a b p x y = either b a p y x.
Proof.
  intros a b p x y L. unfold either. destruct (bytes_ltb a b) eqn:A.
  - rewrite (ltb_asym _ _ A). cbn [orb]. destruct (bytes_eqb b a) eqn:E; [|reflexivity]. apply bytes_eqb_spec in E. subst. rewrite ltb_irrefl in A. discriminate.
  - destruct (bytes_ltb b a) eqn:B; cbn [orb].
    + destruct (bytes_eqb a b) eqn:E; [|reflexivity]. apply bytes_eqb_spec in E. subst. rewrite ltb_irrefl in B. discriminate.
    + pose proof (ltb_total a b L A B) as <-. rewrite bytes_eqb_refl. cbn [andb]. destruct (N.ltb_spec x y), (N.ltb_spec y x); try lia; try reflexivity. now replace y with x by lia.
Qed.
Lemma hash_either : forall f sp dp, norm_ports f = (sp, dp, false) -> hash_input f = either (f_src f) (f_dst f) (f_proto f) sp dp.
Proof. intros f sp dp H. unfold hash_input. rewrite H. reflexivity. Qed.

Lemma dual4_dual : forall x y, dual4 x = Some y -> dual4 y = Some x /\ y < 256.
Proof. intros x y H. unfold dual4 in H. repeat match type of H with match ?e with _ => _ end = _ => destruct e; try discriminate end; injection H as <-; now split. Qed.
Lemma dual6_dual : forall x y, dual6 x = Some y -> dual6 y = Some x /\ y < 256.
Proof. intros x y H. unfold dual6 in H. repeat match type of H with match ?e with _ => _ end = _ => destruct e; try discriminate end; injection H as <-; now split. Qed.

(** The family of addresses. *)
Definition like (a b : address) : Prop := length a = 16%nat /\ length b = 16%nat /\ is_v4 a = is_v4 b.
Lemma addr_bytes_length : forall a, length a = 16%nat -> length (addr_bytes a) = if is_v4 a then 4%nat else 16%nat.
Proof. intros a L. unfold addr_bytes. destruct (is_v4 a); [rewrite skipn_length; lia|exact L]. Qed.
Lemma addr_bytes_inj : forall a b, like a b -> addr_bytes a = addr_bytes b -> a = b.
Proof.
  intros a b (A & B & V) H. unfold addr_bytes in H. rewrite <- V in H. destruct (is_v4 a) eqn:E; [|exact H]. symmetry in V.
  unfold is_v4 in E, V. apply bytes_eqb_spec in E. apply bytes_eqb_spec in V. rewrite <- (firstn_skipn 12 a), <- (firstn_skipn 12 b). now rewrite E, V, H.
Qed.
Lemma be16_inj : forall x y, x < 65536 -> y < 65536 -> be16 x = be16 y -> x = y.
Proof. intros x y X Y H. unfold be16 in H. injection H as A B. rewrite (N.div_mod x 256), (N.div_mod y 256) by discriminate. now rewrite A, B. Qed.
Lemma app_split : forall A (a b c d : list A), length a = length c -> a ++ b = c ++ d -> a = c /\ b = d.
Proof. intros A a. induction a as [|x a IH]; intros b [|y c] d L H; try discriminate; [now split|]. cbn [app] in H. injection H as -> H. destruct (IH b c d) as [-> ->]; [now injection L|exact H|now split]. Qed.
Lemma packed_inj : forall a b p x y a' b' p' x' y', like a b -> like a' b' -> x < 65536 -> y < 65536 -> x' < 65536 -> y' < 65536 ->
  packed a b p x y = packed a' b' p' x' y' -> a = a' /\ b = b' /\ p = p' /\ x = x' /\ y = y'.
Proof.
  intros a b p x y a' b' p' x' y' (A & B & V) (A' & B' & V') X Y X' Y' H. unfold packed in H.
  assert (F : is_v4 a = is_v4 a').
  { apply (f_equal (@length N)) in H. rewrite !app_length in H. cbn [length be16] in H. rewrite !addr_bytes_length in H by assumption. rewrite <- V, <- V' in H.
    destruct (is_v4 a), (is_v4 a'); try reflexivity; cbn in H; lia. }
  apply app_split in H; [|rewrite !addr_bytes_length by assumption; now rewrite F]. destruct H as [H1 H].
  apply app_split in H; [|rewrite !addr_bytes_length by assumption; now rewrite <- V, <- V', F]. destruct H as [H2 H]. cbn [app] in H. injection H as -> H3 H4 H5 H6.
  repeat split.
  - apply addr_bytes_inj; [now repeat split|exact H1].
  - apply addr_bytes_inj; [repeat split; try assumption; now rewrite <- V, <- V', F|exact H2].
  - apply be16_inj; [assumption|assumption|]. unfold be16. now rewrite H3, H4.
  - apply be16_inj; [assumption|assumption|]. unfold be16. now rewrite H5, H6.
Qed.

(** ** Flows *)
Lemma flow_eqb_spec : forall a b, flow_eqb a b = true <-> a = b.
Proof.
  intros [a1 a2 a3 a4 a5] [b1 b2 b3 b4 b5]. unfold flow_eqb. cbn. rewrite !andb_true_iff, !bytes_eqb_spec, !N.eqb_eq. split; [intros ((((-> & ->) & ->) & ->) & ->); reflexivity|].
  intros H. injection H as -> -> -> -> ->. repeat split.
Qed.
Lemma flow_eqb_refl : forall a, flow_eqb a a = true.
Proof. intros a. now apply flow_eqb_spec. Qed.

Lemma look_in : forall f t v, look f t = Some v -> In f (map fst t).
Proof. induction t as [|[g w] t IH]; intros v H; [discriminate|]. cbn [look] in H. destruct (flow_eqb g f) eqn:E; [apply flow_eqb_spec in E; now left|]. right. eapply IH, H. Qed.
Lemma look_none : forall f t, look f t = None <-> ~ In f (map fst t).
Proof.
  intros f t. split.
  - induction t as [|[g w] t IH]; intros H; [intros []|]. cbn [look] in H. destruct (flow_eqb g f) eqn:E; [discriminate|]. intros [A|A]; [cbn in A; subst; rewrite flow_eqb_refl in E; discriminate|now apply IH in H].
  - intros H. destruct (look f t) as [v|] eqn:E; [|reflexivity]. exfalso. apply H. eapply look_in, E.
Qed.
Lemma look_put : forall f g v t, look f (put g v t) = if flow_eqb g f then Some v else look f t.
Proof.
  intros f g v. induction t as [|[h w] t IH]; cbn [put look]; [reflexivity|]. destruct (flow_eqb h g) eqn:E; cbn [look].
  - apply flow_eqb_spec in E. subst h. destruct (flow_eqb g f); reflexivity.
  - rewrite IH. destruct (flow_eqb h f) eqn:F; [|reflexivity]. apply flow_eqb_spec in F. subst h. destruct (flow_eqb g f) eqn:G; [|reflexivity]. apply flow_eqb_spec in G. subst. rewrite flow_eqb_refl in E. discriminate.
Qed.
Lemma put_keys : forall f v t, map fst (put f v t) = if look f t then map fst t else map fst t ++ [f].
Proof.
  intros f v. induction t as [|[g w] t IH]; [reflexivity|]. cbn [put look map]. destruct (flow_eqb g f) eqn:E; [reflexivity|]. cbn [map]. rewrite IH. destruct (look f t); reflexivity.
Qed.
Lemma put_length : forall f v t, length (put f v t) = if look f t then length t else S (length t).
Proof. intros f v t. rewrite <- (map_length fst), put_keys. destruct (look f t); rewrite ?app_length, ?map_length; cbn; lia. Qed.
Lemma put_nodup : forall f v t, NoDup (map fst t) -> NoDup (map fst (put f v t)).
Proof.
  intros f v t H. rewrite put_keys. destruct (look f t) eqn:E; [exact H|]. apply look_none in E. induction (map fst t) as [|g l IH]; [constructor; [intros []|constructor]|].
  inversion H as [|? ? N1 N2]; subst. cbn [app]. constructor; [rewrite in_app_iff; intros [X|[X|[] ]]; [now apply N1|subst; apply E; now left]|]. apply IH; [assumption|]. intros X. apply E. now right.
Qed.
Lemma put_in : forall f v t g, In g (map fst (put f v t)) -> g = f \/ In g (map fst t).
Proof. intros f v t g H. rewrite put_keys in H. destruct (look f t); [now right|]. apply in_app_iff in H. destruct H as [H|[H|[] ]]; auto. Qed.
Lemma look_filter : forall P f t, (forall v, look f t = Some v -> P (f, v) = true) -> look f (filter P t) = look f t.
Proof.
  intros P f. induction t as [|[g w] t IH]; intros H; [reflexivity|]. cbn [filter look] in *. destruct (flow_eqb g f) eqn:E.
  - apply flow_eqb_spec in E. subst g. rewrite (H w eq_refl). cbn [look]. now rewrite flow_eqb_refl.
  - destruct (P (g, w)); cbn [look]; rewrite ?E; now apply IH.
Qed.
Lemma filter_keys : forall P (t : table), (forall g, In g (map fst (filter P t)) -> In g (map fst t)) /\ (NoDup (map fst t) -> NoDup (map fst (filter P t))) /\ (length (filter P t) <= length t)%nat.
Proof.
  intros P. induction t as [|[g w] t (I1 & I2 & I3)]; [repeat split; auto|]. cbn [filter]. destruct (P (g, w)); cbn [map length fst]; repeat split.
  - intros h [H|H]; [now left|right; now apply I1].
  - intros H. inversion H as [|? ? A B]; subst. constructor; [intros X; apply A; now apply I1|now apply I2].
  - lia.
  - intros h H. right. now apply I1.
  - intros H. inversion H; subst. now apply I2.
  - lia.
Qed.

(** ** Shrinking *)
Lemma remove_length : forall A (l : list A) i, (i < length l)%nat -> S (length (remove_nth i l)) = length l.
Proof. intros A l i H. unfold remove_nth. rewrite app_length, firstn_length, skipn_length. lia. Qed.
Lemma shrink_small : forall n max draw t, (length t < max)%nat -> shrink n max draw t = Some t.
Proof. intros n max draw t H. destruct n; cbn [shrink]; now replace (length t <? max)%nat with true by lia. Qed.
Lemma shrink_length : forall n max draw t t', shrink n max draw t = Some t' -> (length t' < max)%nat.
Proof.
  induction n as [|n IH]; intros max draw t t' H; cbn [shrink] in H; destruct (length t <? max)%nat eqn:E; try (injection H as <-; lia).
  - destruct t; discriminate.
  - destruct t; [discriminate|]. eapply IH, H.
Qed.
Lemma shrink_ends : forall n max draw t, (0 < max)%nat -> (length t < n)%nat -> exists t', shrink n max draw t = Some t'.
Proof.
  induction n as [|n IH]; intros max draw t M H; [lia|]. cbn [shrink]. destruct (length t <? max)%nat eqn:E; [eauto|]. destruct t as [|p t]; [apply Nat.ltb_ge in E; cbn in E; lia|]. apply IH; [exact M|].
  pose proof (Nat.mod_upper_bound (draw 0%nat) (length (p :: t)) ltac:(cbn; lia)) as B. pose proof (remove_length _ (p :: t) _ B). lia.
Qed.
(** What is left is part of what was there. *)
Lemma firstn_in : forall A n (l : list A) x, In x (firstn n l) -> In x l.
Proof. intros A n l x H. rewrite <- (firstn_skipn n l). apply in_app_iff. now left. Qed.
Lemma skipn_in : forall A n (l : list A) x, In x (skipn n l) -> In x l.
Proof. intros A n l x H. rewrite <- (firstn_skipn n l). apply in_app_iff. now right. Qed.
Lemma remove_in : forall A i (l : list A) x, In x (remove_nth i l) -> In x l.
Proof. intros A i l x H. unfold remove_nth in H. apply in_app_iff in H. destruct H as [H|H]; [now apply firstn_in in H|now apply skipn_in in H]. Qed.
Lemma remove_keys : forall (t : table) i, NoDup (map fst t) -> NoDup (map fst (remove_nth i t)).
Proof.
  induction t as [|[g w] t IH]; intros i H; [destruct i; exact H|]. inversion H as [|? ? A B]; subst. unfold remove_nth. destruct i as [|i]; [exact B|]. cbn [firstn skipn app map fst]. constructor.
  - intros X. apply A. apply in_map_iff in X. destruct X as (q & <- & Q). apply in_map. eapply remove_in. unfold remove_nth. exact Q.
  - apply (IH i B).
Qed.
Lemma shrink_part : forall n max draw t t', shrink n max draw t = Some t' -> (forall p, In p t' -> In p t) /\ (NoDup (map fst t) -> NoDup (map fst t')).
Proof.
  induction n as [|n IH]; intros max draw t t' H; cbn [shrink] in H; destruct (length t <? max)%nat; try (injection H as <-; now split).
  - destruct t; discriminate.
  - destruct t as [|p t]; [discriminate|]. destruct (IH _ _ _ _ H) as [A B]. split; [intros q Q; apply A in Q; eapply remove_in, Q|]. intros D. apply B. now apply remove_keys.
Qed.
Lemma look_mem : forall t f v, NoDup (map fst t) -> (look f t = Some v <-> In (f, v) t).
Proof.
  induction t as [|[g w] t IH]; intros f v D; [split; [discriminate|intros []]|]. inversion D as [|? ? A B]; subst. cbn [look]. destruct (flow_eqb g f) eqn:E.
  - apply flow_eqb_spec in E. subst g. split; [intros H; injection H as ->; now left|]. intros [H|H]; [injection H as ->; reflexivity|]. exfalso. apply A. apply in_map_iff. now exists (f, v).
  - rewrite IH by exact B. split; [now right|]. intros [H|H]; [|exact H]. injection H as -> ->. rewrite flow_eqb_refl in E. discriminate.
Qed.

(** ** Handling packets *)

(** The flow and the size of the payload of a packet. *)
Definition sized (k : packet) : option (flow * N) := match parse k with Some (PFlow f s _) => Some (f, s) | _ => None end.
Definition share (f : flow) (k : packet) : N := match sized k with Some (g, s) => if flow_eqb g f then s else 0 | None => 0 end.
(** The bytes of payload that packets have for a flow. *)
Fixpoint spent (f : flow) (ks : list packet) : N := match ks with [] => 0 | k :: r => share f k + spent f r end.
Lemma spent_app : forall f a b, spent f (a ++ b) = spent f a + spent f b.
Proof. intros f a b. induction a as [|k a IH]; [reflexivity|]. cbn [app spent]. rewrite IH. lia. Qed.

(** Packets handled one after the other. *)
Fixpoint feed (sha1 : list N -> list N) (c : config) (st : state) (ks : list packet) : option (state * list got) :=
  match ks with
  | [] => Some (st, [])
  | k :: r => match handle sha1 c st k with
              | None => None
              | Some (st1, g) => match feed sha1 c st1 r with Some (st2, gs) => Some (st2, g :: gs) | None => None end
              end
  end.
Lemma feed_app : forall sha1 c a b st, feed sha1 c st (a ++ b) =
  match feed sha1 c st a with Some (st1, g1) => match feed sha1 c st1 b with Some (st2, g2) => Some (st2, g1 ++ g2) | None => None end | None => None end.
Proof.
  intros sha1 c a b. induction a as [|k a IH]; intros st; [cbn; destruct (feed sha1 c st b) as [ [? ?]|]; reflexivity|]. cbn [app feed]. destruct (handle sha1 c st k) as [ [st1 g]|]; [|reflexivity].
  rewrite IH. destruct (feed sha1 c st1 a) as [ [st2 g1]|]; [|reflexivity]. destruct (feed sha1 c st2 b) as [ [? ?]|]; reflexivity.
Qed.

(** What holds of the table after any packets. *)
Record fine (c : config) (ks : list packet) (t : table) : Prop := {
  fine_keys : NoDup (map fst t);
  fine_bytes : forall f b l, In (f, (b, l)) t -> b <= spent f ks /\ b <= c_cutoff c }.
Lemma put_mem : forall f v t p, In p (put f v t) -> p = (f, v) \/ In p t.
Proof.
  intros f v. induction t as [|[g w] t IH]; intros p H; cbn [put] in H; [destruct H as [H|[] ]; now left|].
  destruct (flow_eqb g f) eqn:E; [apply flow_eqb_spec in E; subst g|]; (destruct H as [H|H]; [|]).
  - left. now symmetry.
  - right. now right.
  - right. now left.
  - apply IH in H. destruct H as [H|H]; [now left|right; now right].
Qed.
Lemma ensure_fine : forall c ks f t, fine c ks t -> fine c ks (ensure f t).
Proof.
  intros c ks f t [K B]. unfold ensure. destruct (look f t) eqn:E; [now split|]. split; [now apply put_nodup|]. intros g b l H. apply put_mem in H. destruct H as [H|H]; [|now apply (B _ _ _ H)].
  injection H as -> -> ->. lia.
Qed.
Lemma update_fine : forall c ks k f s l3 t t' ok, parse k = Some (PFlow f s l3) -> fine c ks t -> update_flow c f (k_sec k) s t = Some (t', ok) ->
  fine c (ks ++ [k]) t' /\ (ok = false -> c_cutoff c <= spent f ks).
Proof.
  intros c ks k f s l3 t t' ok P [K B] H. unfold update_flow in H. set (b := match look f t with Some (b, _) => b | None => 0 end) in *.
  assert (Bb : b <= spent f ks /\ b <= c_cutoff c). { unfold b. destruct (look f t) as [ [x l]|] eqn:E; [|lia]. apply look_mem in E; [|exact K]. exact (B _ _ _ E). }
  assert (Sh : forall g, spent g (ks ++ [k]) = spent g ks + if flow_eqb f g then s else 0). { intros g. rewrite spent_app. cbn [spent]. unfold share, sized. rewrite P. lia. }
  destruct (N.eqb_spec b (c_cutoff c)) as [E|E]; [|destruct (N.ltb_spec (c_cutoff c) b); [discriminate|] ]; injection H as <- <-.
  - split; [|intros _; lia]. split; [now apply put_nodup|]. intros g x l H. rewrite Sh. apply put_mem in H. destruct H as [H|H]; [injection H as -> -> ->; lia|]. specialize (B _ _ _ H). destruct (flow_eqb f g); lia.
  - split; [|discriminate]. split; [now apply put_nodup|]. intros g x l H. rewrite Sh. apply put_mem in H. destruct H as [H|H]; [injection H as -> -> ->; rewrite flow_eqb_refl; lia|]. specialize (B _ _ _ H). destruct (flow_eqb f g); lia.
Qed.
Lemma fine_more : forall c ks k t, fine c ks t -> fine c (ks ++ [k]) t.
Proof. intros c ks k t [K B]. split; [exact K|]. intros f b l H. specialize (B _ _ _ H). rewrite spent_app. lia. Qed.
Lemma part_fine : forall c ks t t', (forall p, In p t' -> In p t) -> (NoDup (map fst t) -> NoDup (map fst t')) -> fine c ks t -> fine c ks t'.
Proof. intros c ks t t' A D [K B]. split; [now apply D|]. intros f b l H. apply (B f b l). now apply A. Qed.
Lemma evict_part : forall c now st, (forall p, In p (t_flows (evict_inactive c now st)) -> In p (t_flows st)) /\ (NoDup (map fst (t_flows st)) -> NoDup (map fst (t_flows (evict_inactive c now st)))) /\
  (length (t_flows (evict_inactive c now st)) <= length (t_flows st))%nat.
Proof.
  intros c now st. unfold evict_inactive. destruct (_ <=? _); [now repeat split|]. cbn [t_flows]. destruct (filter_keys (fun p => negb (c_age c <? sub64 now (snd (snd p)))) (t_flows st)) as (_ & A & B).
  repeat split; [|exact A|exact B]. intros p H. apply filter_In in H. apply H.
Qed.

Section Handle.
  Variable sha1 : list N -> list N.
  Lemma handle_fine : forall c ks k st st' g, fine c ks (t_flows st) -> handle sha1 c st k = Some (st', g) -> fine c (ks ++ [k]) (t_flows st') /\
    (g = Skipped -> forall f s l3, parse k = Some (PFlow f s l3) -> c_cutoff c <= spent f ks).
  Proof.
    intros c ks k st st' g I H. unfold handle in H. destruct (parse k) as [ [| |f s l3]|] eqn:P; [| | |discriminate].
    - injection H as <- <-. split; [now apply fine_more|discriminate].
    - injection H as <- <-. split; [now apply fine_more|]. intros _ f s l3 X. discriminate.
    - destruct (update_flow c f (k_sec k) s (t_flows st)) as [ [t1 ok]|] eqn:U; [|discriminate]. destruct (update_fine _ _ _ _ _ _ _ _ _ P I U) as [F C]. destruct ok.
      + set (x := if t_expire st =? 0 then k_sec k else t_expire st) in *. destruct (evict_part c (k_sec k) {| t_flows := t1; t_expire := x |}) as (E1 & E2 & _). cbn [t_flows] in E1, E2.
        set (st2 := evict_inactive c (k_sec k) {| t_flows := t1; t_expire := x |}) in *. destruct (shrink_to_max_size (c_max c) (k_draw k) (t_flows st2)) as [t3|] eqn:S; [|discriminate].
        destruct (bytes_at k l3 (k_len k - l3)) as [p|]; [|discriminate]. injection H as <- <-. split; [|discriminate]. cbn [t_flows]. apply ensure_fine. unfold shrink_to_max_size in S. apply shrink_part in S. destruct S as [S1 S2].
        eapply part_fine; [exact S1|exact S2|]. eapply part_fine; [exact E1|exact E2|exact F].
      + injection H as <- <-. split; [exact F|]. intros _ f' s' l' X. injection X as <- <- <-. now apply C.
  Qed.
  Lemma feed_fine : forall c ks ks0 st st' gs, fine c ks0 (t_flows st) -> feed sha1 c st ks = Some (st', gs) -> fine c (ks0 ++ ks) (t_flows st').
  Proof.
    intros c. induction ks as [|k ks IH]; intros ks0 st st' gs I H; cbn [feed] in H.
    - injection H as <- <-. now rewrite app_nil_r.
    - destruct (handle sha1 c st k) as [ [st1 g]|] eqn:E; [|discriminate]. destruct (feed sha1 c st1 ks) as [ [st2 gs']|] eqn:F; [|discriminate]. injection H as <- <-.
      destruct (handle_fine _ _ _ _ _ _ I E) as [I1 _]. replace (ks0 ++ k :: ks) with ((ks0 ++ [k]) ++ ks) by now rewrite <- app_assoc. eapply IH; eassumption.
  Qed.
  Lemma fresh_fine : forall c, fine c [] (t_flows fresh).
  Proof. intros c. split; [constructor|intros f b l []]. Qed.

  (** Handling is defined for whole packets. *)
  Lemma handle_defined : forall c ks k st p, fine c ks (t_flows st) -> (0 < c_max c)%nat -> length (k_data k) = k_len k -> parse k = Some p ->
    (forall f s l3, p = PFlow f s l3 -> (l3 <= k_len k)%nat) -> handle sha1 c st k <> None.
  Proof.
    intros c ks k st p [K B] M L P Q. unfold handle. rewrite P. destruct p as [| |f s l3]; [discriminate|discriminate|]. specialize (Q f s l3 eq_refl). unfold update_flow.
    set (b := match look f (t_flows st) with Some (b, _) => b | None => 0 end). assert (Bb : b <= c_cutoff c). { unfold b. destruct (look f (t_flows st)) as [ [x l]|] eqn:E; [|lia]. apply look_mem in E; [|exact K]. apply (B _ _ _ E). }
    destruct (N.eqb_spec b (c_cutoff c)); [discriminate|]. replace (c_cutoff c <? b) with false by lia. cbv zeta.
    match goal with |- context [shrink_to_max_size ?m ?d ?t] => destruct (shrink_ends (S (length t)) m d t M ltac:(lia)) as [t3 E]; unfold shrink_to_max_size; rewrite E end.
    unfold bytes_at. replace (l3 + (k_len k - l3) <=? length (k_data k))%nat with true by lia. discriminate.
  Qed.

  (** The number of flows. *)
  Lemma handle_size : forall c k st st' g, 0 < c_cutoff c -> (length (t_flows st) <= c_max c)%nat -> handle sha1 c st k = Some (st', g) -> (length (t_flows st') <= c_max c)%nat.
  Proof.
    intros c k st st' g C L H. unfold handle in H. destruct (parse k) as [ [| |f s l3]|] eqn:P; [now injection H as <- <-|now injection H as <- <-| |discriminate].
    destruct (update_flow c f (k_sec k) s (t_flows st)) as [ [t1 ok]|] eqn:U; [|discriminate]. destruct ok.
    - match type of H with context [evict_inactive ?a ?b ?d] => set (st2 := evict_inactive a b d) in * end. destruct (shrink_to_max_size (c_max c) (k_draw k) (t_flows st2)) as [t3|] eqn:S; [|discriminate].
      destruct (bytes_at k l3 (k_len k - l3)) as [p|]; [|discriminate]. injection H as <- <-. cbn [t_flows]. unfold shrink_to_max_size in S. apply shrink_length in S. unfold ensure. destruct (look f t3) eqn:E; [lia|]. rewrite put_length, E. lia.
    - injection H as <- <-. cbn [t_flows]. unfold update_flow in U. destruct (look f (t_flows st)) as [ [b l]|] eqn:E.
      + assert (X : length t1 = length (t_flows st)). { destruct (N.eqb_spec b (c_cutoff c)); [injection U as <-; rewrite put_length, E; reflexivity|]. destruct (_ <? _); [discriminate|]. discriminate. } lia.
      + destruct (N.eqb_spec 0 (c_cutoff c)); [lia|]. replace (c_cutoff c <? 0) with false in U by lia. discriminate.
  Qed.

  (** ** What a flow has had so far, when nothing is evicted *)
  Fixpoint ordered (now : N) (ks : list packet) : Prop := match ks with [] => True | k :: r => now <= k_sec k < 2 ^ 63 /\ ordered (k_sec k) r end.
  Definition seen (f : flow) (last : option N) (k : packet) : option N :=
    match sized k with Some (g, _) => if flow_eqb g f then Some (k_sec k) else last | None => last end.
  Fixpoint steady (age : N) (f : flow) (last : option N) (ks : list packet) : Prop :=
    match ks with [] => True | k :: r => match last with Some l => k_sec k <= l + age | None => True end /\ steady age f (seen f last k) r end.
  Definition within (fs : list flow) (k : packet) : Prop := forall g s, sized k = Some (g, s) -> In g fs.

  Record exact (c : config) (fs : list flow) (f : flow) (now : N) (last : option N) (sp : N) (t : table) : Prop := {
    ex_keys : NoDup (map fst t);
    ex_few : forall g, In g (map fst t) -> In g fs;
    ex_last : match last with Some l => l <= now | None => sp = 0 end;
    ex_look : look f t = match last with Some l => Some (N.min sp (c_cutoff c), l) | None => None end }.
  Lemma few_length : forall fs (t : table), NoDup (map fst t) -> (forall g, In g (map fst t) -> In g fs) -> (length t <= length fs)%nat.
  Proof. intros fs t D I. rewrite <- (map_length fst). now apply NoDup_incl_length. Qed.
  Lemma sub64_small : forall a b, b <= a -> a < 2 ^ 63 -> sub64 a b = a - b.
  Proof. intros a b H L. unfold sub64. replace (a + (2 ^ 64 - b)) with (a - b + 1 * 2 ^ 64) by lia. rewrite N.mod_add by lia. apply N.mod_small. lia. Qed.

  Lemma handle_exact : forall c fs f now last sp st k st' g, (length fs < c_max c)%nat -> within fs k -> exact c fs f now last sp (t_flows st) ->
    now <= k_sec k < 2 ^ 63 -> match last with Some l => k_sec k <= l + c_age c | None => True end -> handle sha1 c st k = Some (st', g) ->
    exact c fs f (k_sec k) (seen f last k) (sp + share f k) (t_flows st') /\ (forall s l3, parse k = Some (PFlow f s l3) -> (g = Skipped <-> c_cutoff c <= sp) /\ g <> Failed).
  Proof.
    intros c fs f now last sp st k st' g M W [K Fw La Lk] T A H. unfold handle in H. unfold seen, share, within in *. unfold sized in *. destruct (parse k) as [ [| |h s l3]|] eqn:P; [| | |discriminate].
    - injection H as <- <-. split; [|discriminate]. split; [exact K|exact Fw|destruct last; lia|]. rewrite N.add_0_r. exact Lk.
    - injection H as <- <-. split; [|discriminate]. split; [exact K|exact Fw|destruct last; lia|]. rewrite N.add_0_r. exact Lk.
    - specialize (W h s eq_refl). destruct (update_flow c h (k_sec k) s (t_flows st)) as [ [t1 ok]|] eqn:U; [|discriminate].
      assert (Key : forall t2 v, t2 = put h v (t_flows st) -> NoDup (map fst t2) /\ (forall g0, In g0 (map fst t2) -> In g0 fs)).
      { intros t2 v ->. split; [now apply put_nodup|]. intros g0 G. apply put_in in G. destruct G as [->|G]; [exact W|now apply Fw]. }
      assert (Own : h = f -> let b := N.min sp (c_cutoff c) in update_flow c f (k_sec k) s (t_flows st) =
        if b =? c_cutoff c then Some (put f (b, k_sec k) (t_flows st), false) else Some (put f (b + N.min s (c_cutoff c - b), k_sec k) (t_flows st), true)).
      { intros _. cbv zeta. unfold update_flow. rewrite Lk. destruct last as [l|].
        - destruct (N.eqb_spec (N.min sp (c_cutoff c)) (c_cutoff c)); [reflexivity|]. now replace (c_cutoff c <? N.min sp (c_cutoff c)) with false by lia.
        - rewrite La, N.min_0_l. destruct (N.eqb_spec 0 (c_cutoff c)); [reflexivity|]. now replace (c_cutoff c <? 0) with false by lia. }
      assert (T1 : exists b2, t1 = put h (b2, k_sec k) (t_flows st)).
      { unfold update_flow in U. destruct (_ =? _); [injection U as <- _; eauto|]. destruct (_ <? _); [discriminate|]. injection U as <- _. eauto. }
      destruct T1 as [b2 T1]. destruct (Key _ _ T1) as [K1 F1].
      assert (L1 : look f t1 = if flow_eqb h f then Some (b2, k_sec k) else match last with Some l => Some (N.min sp (c_cutoff c), l) | None => None end). { rewrite T1, look_put. destruct (flow_eqb h f); [reflexivity|exact Lk]. }
      assert (B2 : h = f -> b2 = N.min (sp + s) (c_cutoff c) /\ (ok = false <-> c_cutoff c <= sp)).
      { intros ->. specialize (Own eq_refl). cbv zeta in Own. rewrite Own in U. rewrite T1 in U. clear -U.
        assert (G : forall x y (t : table), put f x t = put f y t -> x = y). { intros x y t E. assert (E2 : look f (put f x t) = look f (put f y t)) by now rewrite E. rewrite !look_put, flow_eqb_refl in E2. now injection E2. }
        destruct (N.eqb_spec (N.min sp (c_cutoff c)) (c_cutoff c)) as [E|E]; injection U as E1 <-; apply G in E1; injection E1 as <-; split; try lia; split; intros; try lia; try discriminate; reflexivity. }
      set (x := if t_expire st =? 0 then k_sec k else t_expire st) in *.
      assert (Keep : forall t, NoDup (map fst t) -> look f t = look f t1 -> look f (t_flows (evict_inactive c (k_sec k) {| t_flows := t; t_expire := x |})) = look f t).
      { intros t D E. unfold evict_inactive. destruct (_ <=? _); [reflexivity|]. cbn [t_flows]. apply look_filter. intros [b l] V. cbn [snd]. rewrite E, L1 in V.
        destruct (flow_eqb h f). { injection V as <- <-. rewrite sub64_small by lia. destruct (N.ltb_spec (c_age c) (k_sec k - k_sec k)); [lia|reflexivity]. }
        destruct last as [l0|]; [|discriminate]. injection V as _ <-. rewrite sub64_small by lia. destruct (N.ltb_spec (c_age c) (k_sec k - l0)); [lia|reflexivity]. }
      destruct ok.
      + set (st2 := evict_inactive c (k_sec k) {| t_flows := t1; t_expire := x |}) in *. destruct (evict_part c (k_sec k) {| t_flows := t1; t_expire := x |}) as (E1 & E2 & E3). cbn [t_flows] in E1, E2, E3. fold st2 in E1, E2, E3.
        unfold shrink_to_max_size in H. rewrite shrink_small in H by (pose proof (few_length fs t1 K1 F1); lia). destruct (bytes_at k l3 (k_len k - l3)) as [p|]; [|discriminate]. injection H as <- <-. cbn [t_flows].
        assert (K2 : NoDup (map fst (t_flows st2))) by now apply E2.
        assert (F2 : forall g0, In g0 (map fst (t_flows st2)) -> In g0 fs). { intros g0 G. apply F1. apply in_map_iff in G. destruct G as (q & <- & G). apply in_map. now apply E1. }
        assert (L2 : look f (ensure h (t_flows st2)) = look f t1).
        { unfold ensure. destruct (look h (t_flows st2)) eqn:Eh; [now apply Keep|]. rewrite look_put. destruct (flow_eqb h f) eqn:Ef; [|now apply Keep]. apply flow_eqb_spec in Ef. subst h.
          pose proof (Keep t1 K1 eq_refl) as X. fold st2 in X. rewrite Eh in X. rewrite L1 in X. discriminate. }
        split.
        * split.
          -- unfold ensure. destruct (look h (t_flows st2)); [exact K2|now apply put_nodup].
          -- intros g0 G. unfold ensure in G. destruct (look h (t_flows st2)); [now apply F2|]. apply put_in in G. destruct G as [->|G]; [exact W|now apply F2].
          -- destruct (flow_eqb h f) eqn:Ef; [lia|]. destruct last; lia.
          -- rewrite L2, L1. destruct (flow_eqb h f) eqn:Ef; [|now rewrite N.add_0_r]. apply flow_eqb_spec in Ef. now rewrite (proj1 (B2 Ef)).
        * intros s' l' X. injection X as -> _ _. split; [|discriminate]. specialize (B2 eq_refl). split; [discriminate|]. intros Y. apply B2 in Y. discriminate.
      + injection H as <- <-. cbn [t_flows]. split.
        * split; [exact K1|exact F1|destruct (flow_eqb h f); [lia|destruct last; lia]|]. rewrite L1. destruct (flow_eqb h f) eqn:Ef; [|now rewrite N.add_0_r]. apply flow_eqb_spec in Ef. now rewrite (proj1 (B2 Ef)).
        * intros s' l' X. injection X as -> _ _. split; [|discriminate]. split; [intros _; now apply B2|reflexivity].
  Qed.
  Lemma feed_exact : forall c fs f ks now last sp st st' gs, (length fs < c_max c)%nat -> Forall (within fs) ks -> exact c fs f now last sp (t_flows st) -> ordered now ks -> steady (c_age c) f last ks ->
    feed sha1 c st ks = Some (st', gs) -> exists now', exact c fs f now' (fold_left (seen f) ks last) (sp + spent f ks) (t_flows st') /\ forall rest, ordered now (ks ++ rest) -> ordered now' rest.
  Proof.
    intros c fs f. induction ks as [|k ks IH]; intros now last sp st st' gs M W I O S H; cbn [feed] in H.
    - injection H as <- <-. exists now. cbn [fold_left spent]. rewrite N.add_0_r. split; [exact I|]. intros rest R. exact R.
    - destruct (handle sha1 c st k) as [ [st1 g]|] eqn:E; [|discriminate]. destruct (feed sha1 c st1 ks) as [ [st2 gs']|] eqn:F; [|discriminate]. injection H as <- <-. destruct O as [O1 O2]. destruct S as [S1 S2].
      destruct (handle_exact _ _ _ _ _ _ _ _ _ _ M (Forall_inv W) I O1 S1 E) as [I1 _]. destruct (IH _ _ _ _ _ _ M (Forall_inv_tail W) I1 O2 S2 F) as (now' & J & R). exists now'. cbn [fold_left spent]. split.
      + replace (sp + (share f k + spent f ks)) with (sp + share f k + spent f ks) by lia. exact J.
      + intros rest [_ Q]. now apply R.
  Qed.
End Handle.

(** ** Frames *)
Lemma at_place : forall k i n pre mid post, k_data k = pre ++ mid ++ post -> length pre = i -> length mid = n -> bytes_at k i n = Some mid.
Proof.
  intros k i n pre mid post D L M. unfold bytes_at. rewrite D, !app_length. replace (i + n <=? length pre + (length mid + length post))%nat with true by lia. f_equal.
  rewrite skipn_app, <- L, skipn_all, Nat.sub_diag. cbn [skipn app]. rewrite firstn_app, <- M, firstn_all, Nat.sub_diag. cbn [firstn]. apply app_nil_r.
Qed.
Lemma byte_place : forall k i pre b post, k_data k = pre ++ [b] ++ post -> length pre = i -> byte k i = Some b.
Proof. intros k i pre b post D L. unfold byte. rewrite D, nth_error_app2 by lia. now rewrite <- L, Nat.sub_diag. Qed.
Lemma word_place : forall k i pre n post, k_data k = pre ++ be16 n ++ post -> length pre = i -> word_at k i = Some n.
Proof. intros k i pre n post D L. unfold word_at. rewrite (at_place k i 2 pre (be16 n) post D L eq_refl). unfold be16. f_equal. symmetry. apply N.div_mod. discriminate. Qed.

(** The part of an Ethernet frame before the type: addresses and VLAN tags. *)
Inductive tagged : list N -> nat -> Prop :=
  | Untagged : tagged [] 0
  | Tagged a b : tagged [129; 0; a; b] 4
  | Twice a b x y c d : tagged [145; 0; a; b; x; y; c; d] 8.
Definition ethernet (macs tags : list N) (type : N) (body : list N) : list N := macs ++ tags ++ be16 type ++ body.
(** An IPv4 packet with [n] words of options. *)
Definition ipv4 (n : nat) (mid : list N) (proto : N) (sum src dst options body : list N) : list N :=
  [64 + (5 + N.of_nat n)] ++ mid ++ [proto] ++ sum ++ src ++ dst ++ options ++ body.
(** What IPv4 carries. *)
Inductive transport := Tcp (sp dp : N) (mid : list N) (o : N) (rest : list N) | Udp (sp dp : N) (rest : list N) | Icmp (t c : N) (rest : list N) | Other (p : N) (rest : list N).
Definition tbytes (x : transport) : list N :=
  match x with
  | Tcp sp dp mid o rest => be16 sp ++ be16 dp ++ mid ++ [o] ++ rest
  | Udp sp dp rest => be16 sp ++ be16 dp ++ rest
  | Icmp t c rest => [t; c] ++ rest
  | Other _ rest => rest
  end.
Definition tproto (x : transport) : N := match x with Tcp _ _ _ _ _ => 6 | Udp _ _ _ => 17 | Icmp _ _ _ => 1 | Other p _ => p end.
(** The headers are complete. *)
Definition whole (x : transport) : Prop :=
  match x with
  | Tcp sp dp mid o rest => length mid = 8%nat /\ N.shiftr o 4 * 4 <= N.of_nat (length (tbytes x))
  | Udp sp dp rest => (4 <= length rest)%nat
  | Icmp t c rest => (6 <= length rest)%nat
  | Other p rest => p <> 6 /\ p <> 17 /\ p <> 1
  end.
Definition theader (x : transport) : N := match x with Tcp _ _ _ o _ => N.shiftr o 4 * 4 | Udp _ _ _ | Icmp _ _ _ => 8 | Other _ _ => 0 end.
Definition tports (x : transport) : N * N * N :=
  match x with Tcp sp dp _ _ _ => (sp, dp, 6) | Udp sp dp _ => (sp, dp, 17) | Icmp t c _ => (t, c, 1) | Other _ _ => (0, 0, 255) end.
Definition tflow (src dst : address) (x : transport) : flow :=
  let '(sp, dp, p) := tports x in {| f_src := src; f_dst := dst; f_sport := sp; f_dport := dp; f_proto := p |}.

Lemma sub64_fits : forall a b, b <= a -> a < 2 ^ 64 -> sub64 a b = a - b.
Proof. intros a b H L. unfold sub64. replace (a + (2 ^ 64 - b)) with (a - b + 1 * 2 ^ 64) by lia. rewrite N.mod_add by lia. apply N.mod_small. lia. Qed.
Lemma layer4_place : forall k src dst x i pre l3, whole x -> k_data k = pre ++ tbytes x -> length pre = i -> N.of_nat (length (tbytes x)) < 2 ^ 64 ->
  layer4 k src dst (tproto x) i (length (tbytes x)) l3 = Some (PFlow (tflow src dst x) (N.of_nat (length (tbytes x)) - theader x) l3).
Proof.
  intros k src dst x i pre l3 W D L B. unfold layer4. destruct x as [sp dp mid o rest|sp dp rest|t c rest|p rest]; cbn [tproto tflow tports theader whole] in *.
  - destruct W as [W1 W2]. change (6 =? p_tcp) with true. cbv iota. cbn [tbytes] in *. replace (length (be16 sp ++ be16 dp ++ mid ++ [o] ++ rest) =? 0)%nat with false by reflexivity.
    rewrite (word_place k i pre sp _ D L). rewrite (word_place k (i + 2) (pre ++ be16 sp) dp (mid ++ [o] ++ rest)) by (rewrite ?D, ?app_length, <- ?app_assoc; cbn [be16 length]; (reflexivity || lia)).
    rewrite (byte_place k (i + 12) (pre ++ be16 sp ++ be16 dp ++ mid) o rest) by (rewrite ?D, ?app_length, <- ?app_assoc; cbn [be16 length]; (reflexivity || lia)). now rewrite sub64_fits.
  - change (17 =? p_tcp) with false. change (17 =? p_udp) with true. cbv iota. cbn [tbytes] in *. replace (length (be16 sp ++ be16 dp ++ rest) =? 0)%nat with false by reflexivity.
    rewrite (word_place k i pre sp _ D L). rewrite (word_place k (i + 2) (pre ++ be16 sp) dp rest) by (rewrite ?D, ?app_length, <- ?app_assoc; cbn [be16 length]; (reflexivity || lia)).
    rewrite sub64_fits; [reflexivity| |exact B]. rewrite !app_length. cbn [be16 length]. lia.
  - change (1 =? p_tcp) with false. change (1 =? p_udp) with false. change (1 =? p_icmp) with true. cbv iota. cbn [tbytes] in *. replace (length ([t; c] ++ rest) =? 0)%nat with false by reflexivity.
    rewrite (byte_place k i pre t ([c] ++ rest)) by (rewrite ?D; (reflexivity || lia)). rewrite (byte_place k (i + 1) (pre ++ [t]) c rest) by (rewrite ?D, ?app_length, <- ?app_assoc; cbn [length]; (reflexivity || lia)).
    rewrite sub64_fits; [reflexivity| |exact B]. rewrite !app_length. cbn [length]. lia.
  - destruct W as (W1 & W2 & W3). unfold p_tcp, p_udp, p_icmp, p_unknown. replace (p =? 6) with false by lia. replace (p =? 17) with false by lia. replace (p =? 1) with false by lia. now rewrite N.sub_0_r.
Qed.

Lemma start_place : forall k macs tags s type body, tagged tags s -> length macs = 12%nat -> type <> 0x8100 -> type <> 0x9100 ->
  k_data k = ethernet macs tags type body -> k_len k = length (k_data k) -> frame_start k = Some (Some s).
Proof.
  intros k macs tags s type body T M N1 N2 D L. unfold ethernet in D. unfold frame_start.
  assert (Ln : (k_len k <? 14)%nat = false). { rewrite L, D, !app_length, M. cbn [be16 length]. apply Nat.ltb_ge. lia. } rewrite Ln. destruct T as [|a b|a b x y c d].
  - rewrite (word_place k 12 macs type body D M). replace (type =? 0x8100) with false by lia. now replace (type =? 0x9100) with false by lia.
  - rewrite (word_place k 12 macs 0x8100 ([a; b] ++ be16 type ++ body)); [reflexivity|rewrite D; reflexivity|exact M].
  - rewrite (word_place k 12 macs 0x9100 ([a; b; x; y; c; d] ++ be16 type ++ body)); [reflexivity|rewrite D; reflexivity|exact M].
Qed.
Lemma tagged_length : forall tags s, tagged tags s -> length tags = s.
Proof. intros tags s []; reflexivity. Qed.

Lemma parse_ipv4 : forall k macs tags s n mid sum src dst options x, tagged tags s -> length macs = 12%nat -> (n <= 10)%nat -> length mid = 8%nat -> length sum = 2%nat -> length src = 4%nat -> length dst = 4%nat ->
  length options = (4 * n)%nat -> whole x -> N.of_nat (length (tbytes x)) < 2 ^ 64 ->
  let ip := ipv4 n mid (tproto x) sum src dst options (tbytes x) in
  k_data k = ethernet macs tags 0x0800 ip -> k_len k = length (k_data k) ->
  parse k = Some (PFlow (tflow (v4_prefix ++ src) (v4_prefix ++ dst) x) (N.of_nat (length (tbytes x)) - theader x) (s + 14)) /\
  bytes_at k (s + 14) (k_len k - (s + 14)) = Some ip /\ (s + 14 <= k_len k)%nat.
Proof.
  intros k macs tags s n mid sum src dst options x T M Hn Hm Hs Hsrc Hdst Ho W B ip D L. pose proof (tagged_length _ _ T) as Ts. assert (Li : length ip = (20 + 4 * n + length (tbytes x))%nat).
  { unfold ip, ipv4. rewrite !app_length, Hm, Hs, Hsrc, Hdst, Ho. cbn [length]. lia. }
  assert (Lk : k_len k = (s + 14 + length ip)%nat). { rewrite L, D. unfold ethernet. rewrite !app_length, M, Ts. cbn [be16 length]. lia. }
  split; [|split; [|lia] ].
  2: { apply (at_place k _ _ (macs ++ tags ++ be16 0x0800) ip []); [rewrite D, app_nil_r; unfold ethernet; now rewrite <- !app_assoc|rewrite !app_length, M, Ts; cbn [be16 length]; lia|lia]. }
  unfold parse. rewrite (start_place k macs tags s 0x0800 ip T M ltac:(discriminate) ltac:(discriminate) D L). replace (k_len k <? s + 14)%nat with false by (symmetry; apply Nat.ltb_ge; lia). cbv zeta.
  rewrite (word_place k (s + 12) (macs ++ tags) 0x0800 ip) by (rewrite ?D, ?app_length, <- ?app_assoc; (reflexivity || lia)). change (2048 =? 2048) with true. cbv iota. replace (k_len k <? 34)%nat with false by (symmetry; apply Nat.ltb_ge; lia).
  set (h := macs ++ tags ++ be16 0x0800). assert (Lh : length h = (s + 14)%nat) by (unfold h; rewrite !app_length, M, Ts; cbn [be16 length]; lia).
  assert (D' : k_data k = h ++ ip) by (rewrite D; unfold h, ethernet; now rewrite <- !app_assoc). unfold ip, ipv4 in D'.
  rewrite (byte_place k (s + 14) h _ _ D' Lh).
  assert (Ld : N.land (64 + (5 + N.of_nat n)) 15 = 5 + N.of_nat n). { change 15 with (N.ones 4). rewrite N.land_ones. change (2 ^ 4) with 16. replace (64 + (5 + N.of_nat n)) with (5 + N.of_nat n + 4 * 16) by lia. rewrite N.mod_add by discriminate. apply N.mod_small. lia. }
  rewrite Ld. replace (N.to_nat ((5 + N.of_nat n) * 4)) with (20 + 4 * n)%nat by lia. replace (20 + 4 * n <? 20)%nat with false by (symmetry; apply Nat.ltb_ge; lia). unfold v4_at.
  set (b0 := 64 + (5 + N.of_nat n)) in *.
  rewrite (at_place k (s + 14 + 12) 4 (h ++ [b0] ++ mid ++ [tproto x] ++ sum) src (dst ++ options ++ tbytes x)) by (rewrite ?D', ?app_length, <- ?app_assoc; cbn [length]; (reflexivity || lia)).
  rewrite (at_place k (s + 14 + 16) 4 (h ++ [b0] ++ mid ++ [tproto x] ++ sum ++ src) dst (options ++ tbytes x)) by (rewrite ?D', ?app_length, <- ?app_assoc; cbn [length]; (reflexivity || lia)).
  rewrite (byte_place k (s + 14 + 9) (h ++ [b0] ++ mid) (tproto x) (sum ++ src ++ dst ++ options ++ tbytes x)) by (rewrite ?D', ?app_length, <- ?app_assoc; cbn [length]; (reflexivity || lia)).
  cbn [option_map]. replace (k_len k - (s + 14) <? 20 + 4 * n)%nat with false by (symmetry; apply Nat.ltb_ge; lia).
  replace (k_len k - (s + 14) - (20 + 4 * n))%nat with (length (tbytes x)) by lia.
  apply (layer4_place k _ _ x _ (h ++ [b0] ++ mid ++ [tproto x] ++ sum ++ src ++ dst ++ options)); [exact W|rewrite D', <- !app_assoc; reflexivity| |exact B].
  rewrite !app_length. cbn [length]. lia.
Qed.

(** ** The reader *)
Definition recorded (gs : list got) : list event := flat_map (fun g => match g with Recorded e => [e] | _ => [] end) gs.
Definition packets (ins : list input) : list packet := flat_map (fun i => match i with IPacket k => [k] | _ => [] end) ins.

Section Read.
  Variable sha1 : list N -> list N.
  Lemma finish_spec : forall r r' s m, finish r = (r', s) -> (length (r_rows r) <= m)%nat -> r_state r' = r_state r /\ r_rows r' = [] /\ r_rows r = concat s /\ Forall (fun x => 1 <= length x <= m)%nat s.
  Proof.
    intros r r' s m H L. unfold finish in H. injection H as <- <-. cbn [r_state r_rows]. destruct (r_rows r) as [|e l] eqn:E; [repeat split; constructor|]. repeat split; [cbn; now rewrite app_nil_r|]. constructor; [cbn in *; lia|constructor].
  Qed.
  Lemma read_loop_spec : forall c n m ins produced r s res r' rest, (0 < m)%nat -> (length (r_rows r) < m)%nat -> read_loop sha1 c n m produced r ins = Some (s, res, r', rest) ->
    exists used gs, ins = used ++ rest /\ feed sha1 c (r_state r) (packets used) = Some (r_state r', gs) /\ r_rows r ++ recorded gs = concat s ++ r_rows r' /\
      Forall (fun x => 1 <= length x <= m)%nat s /\ (res = ROk \/ res = RTimeout \/ res = REnd -> r_rows r' = []) /\ (produced + length (recorded gs) <= Nat.max n produced)%nat /\ (length (r_rows r') < m)%nat.
  Proof.
    intros c n m. induction ins as [|i ins IH]; intros produced r s res r' rest M L H; cbn [read_loop] in H; destruct (n <=? produced)%nat eqn:E.
    - destruct (finish r) as [r1 s1] eqn:F. injection H as <- <- <- <-. destruct (finish_spec _ _ _ m F ltac:(lia)) as (F1 & F2 & F3 & F4). exists [], []. cbn [app feed packets flat_map recorded length]. rewrite F1, F2, F3, !app_nil_r. repeat split; auto; cbn; lia.
    - injection H as <- <- <- <-. exists [], []. cbn [app feed packets flat_map recorded length concat]. rewrite !app_nil_r. repeat split; auto; [intros [X|[X|X] ]; discriminate|lia].
    - destruct (finish r) as [r1 s1] eqn:F. injection H as <- <- <- <-. destruct (finish_spec _ _ _ m F ltac:(lia)) as (F1 & F2 & F3 & F4). exists [], []. cbn [app feed packets flat_map recorded length]. rewrite F1, F2, F3, !app_nil_r. repeat split; auto; cbn; lia.
    - assert (Fin : forall x, (forall k, x <> IPacket k) -> forall rs, (let (r0, s0) := finish r in Some (s0, rs, r0, ins)) = Some (s, res, r', rest) -> exists used gs, x :: ins = used ++ rest /\ feed sha1 c (r_state r) (packets used) = Some (r_state r', gs) /\
        r_rows r ++ recorded gs = concat s ++ r_rows r' /\ Forall (fun x => 1 <= length x <= m)%nat s /\ (res = ROk \/ res = RTimeout \/ res = REnd -> r_rows r' = []) /\ (produced + length (recorded gs) <= Nat.max n produced)%nat /\ (length (r_rows r') < m)%nat).
      { intros x X rs G. destruct (finish r) as [r1 s1] eqn:F. injection G as <- <- <- <-. destruct (finish_spec _ _ _ m F ltac:(lia)) as (F1 & F2 & F3 & F4). exists [x], [].
        assert (P : packets [x] = []) by (destruct x; try reflexivity; exfalso; eapply X; reflexivity). rewrite P. cbn [app feed recorded flat_map length]. rewrite F1, F2, F3, !app_nil_r. repeat split; auto; cbn; lia. }
      assert (Go : forall x, (forall k, x <> IPacket k) -> read_loop sha1 c n m produced r ins = Some (s, res, r', rest) -> exists used gs, x :: ins = used ++ rest /\ feed sha1 c (r_state r) (packets used) = Some (r_state r', gs) /\
        r_rows r ++ recorded gs = concat s ++ r_rows r' /\ Forall (fun x => 1 <= length x <= m)%nat s /\ (res = ROk \/ res = RTimeout \/ res = REnd -> r_rows r' = []) /\ (produced + length (recorded gs) <= Nat.max n produced)%nat /\ (length (r_rows r') < m)%nat).
      { intros x X G. destruct (IH _ _ _ _ _ _ M L G) as (used & gs & -> & A2 & A3). exists (x :: used), gs. split; [reflexivity|]. split; [|exact A3].
        assert (P : packets (x :: used) = packets used) by (destruct x; try reflexivity; exfalso; eapply X; reflexivity). rewrite P. exact A2. }
      destruct i as [| |k| |].
      + destruct (0 <? r_batch r)%nat; [eapply Fin|eapply Go]; try exact H; discriminate.
      + destruct (produced =? 0)%nat; [eapply Go|eapply Fin]; try exact H; discriminate.
      + destruct (handle sha1 c (r_state r) k) as [ [st [| |e] ]|] eqn:Hk; [| | |discriminate].
        * injection H as <- <- <- <-. exists [IPacket k], [Failed]. cbn [app feed packets flat_map recorded length concat set_state r_state r_rows]. rewrite Hk, !app_nil_r. repeat split; auto; [intros [X|[X|X] ]; discriminate|lia].
        * destruct (IH produced (set_state r st 1) _ _ _ _ M L H) as (used & gs & -> & A2 & A3 & A4 & A5 & A6 & A7). exists (IPacket k :: used), (Skipped :: gs). split; [reflexivity|]. change (packets (IPacket k :: used)) with (k :: packets used).
          cbn [feed]. rewrite Hk. cbn [set_state r_state r_rows] in A2, A3. rewrite A2. cbn [recorded flat_map app]. fold (recorded gs). now repeat split.
        * destruct (length (r_rows (add_row r st e)) =? m)%nat eqn:Em.
          -- destruct (finish (add_row r st e)) as [r2 s2] eqn:F. destruct (read_loop sha1 c n m (S produced) r2 ins) as [ [ [ [s' res'] r''] rest']|] eqn:R; [|discriminate]. injection H as <- <- <- <-.
             apply Nat.eqb_eq in Em. destruct (finish_spec _ _ _ m F ltac:(lia)) as (F1 & F2 & F3 & F4). destruct (IH _ _ _ _ _ _ M ltac:(rewrite F2; cbn; lia) R) as (used & gs & -> & A2 & A3 & A4 & A5 & A6 & A7).
             exists (IPacket k :: used), (Recorded e :: gs). split; [reflexivity|]. change (packets (IPacket k :: used)) with (k :: packets used). cbn [feed]. rewrite Hk. rewrite F1 in A2. cbn [add_row r_state r_rows] in A2, F3. rewrite A2.
             cbn [recorded flat_map app]. fold (recorded gs). split; [reflexivity|]. split; [|split; [apply Forall_app; now split|split; [exact A5|split; [cbn [length]; lia|exact A7] ] ] ].
             rewrite F2 in A3. cbn [app] in A3. rewrite concat_app, <- app_assoc, <- A3, <- F3, <- app_assoc. reflexivity.
          -- destruct (read_loop sha1 c n m (S produced) (add_row r st e) ins) as [ [ [ [s' res'] r''] rest']|] eqn:R; [|discriminate]. injection H as <- <- <- <-. apply Nat.eqb_neq in Em.
             assert (La : (length (r_rows (add_row r st e)) < m)%nat) by (cbn [add_row r_rows] in *; rewrite app_length in *; cbn [length] in *; lia).
             destruct (IH _ _ _ _ _ _ M La R) as (used & gs & -> & A2 & A3 & A4 & A5 & A6 & A7). exists (IPacket k :: used), (Recorded e :: gs). split; [reflexivity|]. change (packets (IPacket k :: used)) with (k :: packets used).
             cbn [feed]. rewrite Hk. cbn [add_row r_state r_rows] in A2, A3. rewrite A2. cbn [recorded flat_map app]. fold (recorded gs). split; [reflexivity|]. split; [|repeat split; try assumption; cbn [length]; lia].
             rewrite <- app_assoc in A3. exact A3.
      + eapply Fin; [|exact H]; discriminate.
      + eapply Fin; [|exact H]; discriminate.
  Qed.
  Lemma packets_app : forall a b, packets (a ++ b) = packets a ++ packets b.
  Proof. intros a b. apply flat_map_app. Qed.
  Lemma recorded_app : forall a b, recorded (a ++ b) = recorded a ++ recorded b.
  Proof. intros a b. apply flat_map_app. Qed.
  Lemma session_spec : forall c calls r ins s res r' rest, Forall (fun nm => 0 < snd nm)%nat calls -> r_rows r = [] -> session sha1 c calls r ins = Some (s, res, r', rest) ->
    exists used gs, ins = used ++ rest /\ feed sha1 c (r_state r) (packets used) = Some (r_state r', gs) /\ recorded gs = concat s ++ r_rows r' /\
      Forall (fun x => exists nm, In nm calls /\ (1 <= length x <= snd nm)%nat) s /\ (res = ROk \/ res = RTimeout \/ res = REnd -> r_rows r' = []) /\ (length (concat s) <= list_sum (map fst calls))%nat.
  Proof.
    intros c. induction calls as [|[n m] calls IH]; intros r ins s res r' rest F R H; cbn [session] in H.
    - injection H as <- <- <- <-. exists [], []. cbn. rewrite R. repeat split; auto; constructor.
    - pose proof (Forall_inv F) as M. cbn [snd] in M. unfold read in H. destruct (read_loop sha1 c n m 0 r ins) as [ [ [ [s1 res1] r1] rest1]|] eqn:E; [|discriminate].
      destruct (read_loop_spec c n m ins 0 r s1 res1 r1 rest1 M ltac:(rewrite R; cbn; lia) E) as (used & gs & -> & A2 & A3 & A4 & A5 & A6 & A7). rewrite R in A3. cbn [app] in A3.
      assert (Le : (length (concat s1) <= n)%nat). { assert (X : length (recorded gs) = (length (concat s1) + length (r_rows r1))%nat) by (rewrite A3; apply app_length). lia. }
      assert (Stop : Some (s1, res1, r1, rest1) = Some (s, res, r', rest) -> exists used0 gs0, used ++ rest1 = used0 ++ rest /\ feed sha1 c (r_state r) (packets used0) = Some (r_state r', gs0) /\ recorded gs0 = concat s ++ r_rows r' /\
        Forall (fun x => exists nm, In nm ((n, m) :: calls) /\ (1 <= length x <= snd nm)%nat) s /\ (res = ROk \/ res = RTimeout \/ res = REnd -> r_rows r' = []) /\ (length (concat s) <= list_sum (map fst ((n, m) :: calls)))%nat).
      { intros G. injection G as <- <- <- <-. exists used, gs. repeat split; try assumption; [|cbn; lia]. eapply Forall_impl; [|exact A4]. intros x X. exists (n, m). split; [now left|exact X]. }
      assert (Go : r_rows r1 = [] -> match session sha1 c calls r1 rest1 with Some (s', res, r'', rest') => Some (s1 ++ s', res, r'', rest') | None => None end = Some (s, res, r', rest) -> exists used0 gs0, used ++ rest1 = used0 ++ rest /\ feed sha1 c (r_state r) (packets used0) = Some (r_state r', gs0) /\ recorded gs0 = concat s ++ r_rows r' /\
        Forall (fun x => exists nm, In nm ((n, m) :: calls) /\ (1 <= length x <= snd nm)%nat) s /\ (res = ROk \/ res = RTimeout \/ res = REnd -> r_rows r' = []) /\ (length (concat s) <= list_sum (map fst ((n, m) :: calls)))%nat).
      { intros R1 G. destruct (session sha1 c calls r1 rest1) as [ [ [ [s2 res2] r2] rest2]|] eqn:S; [|discriminate]. injection G as <- <- <- <-. destruct (IH _ _ _ _ _ _ (Forall_inv_tail F) R1 S) as (used2 & gs2 & -> & B2 & B3 & B4 & B5 & B6).
        exists (used ++ used2), (gs ++ gs2). split; [now rewrite app_assoc|]. split; [rewrite packets_app, feed_app, A2, B2; reflexivity|]. split; [rewrite recorded_app, A3, B3, R1, app_nil_r, concat_app, app_assoc; reflexivity|].
        split; [|split; [exact B5|rewrite concat_app, app_length; change (list_sum (map fst ((n, m) :: calls))) with (n + list_sum (map fst calls))%nat; lia] ]. apply Forall_app. split.
        - eapply Forall_impl; [|exact A4]. intros x X. exists (n, m). split; [now left|exact X].
        - eapply Forall_impl; [|exact B4]. intros x (nm & X1 & X2). exists nm. split; [now right|exact X2]. }
      destruct res1; auto.
  Qed.
End Read.
