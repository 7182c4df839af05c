(** C71: packets become events of the right flow, flows are cut off where configured, and both
    directions of a flow have one community identifier. *)
From Coq Require Import List NArith ZArith Bool Arith Lia.
From Coq Require Import ZifyBool ZifyNat ZifyN.
From Verif Require Import AddressModel AddressProofs Base64Model PcapModel PcapProofs.
Import ListNotations.
Local Open Scope N_scope.
Local Notation length := List.length.

(** ** Packets *)

(** A captured Ethernet frame, with VLAN tags or without, that carries IPv4 with TCP, UDP, ICMP or
    anything else: if it is recorded, the event has the time of the packet, the addresses and ports
    of its headers, the identifier of its flow, and the whole IP packet. *)
Theorem C71_frame : forall sha1 c st st' g k macs tags s n mid sum src dst options x,
  tagged tags s -> length macs = 12%nat -> (n <= 10)%nat -> length mid = 8%nat -> length sum = 2%nat -> length src = 4%nat -> length dst = 4%nat -> length options = (4 * n)%nat ->
  whole x -> N.of_nat (length (tbytes x)) < 2 ^ 64 ->
  k_data k = ethernet macs tags 0x0800 (ipv4 n mid (tproto x) sum src dst options (tbytes x)) -> k_len k = length (k_data k) ->
  handle sha1 c st k = Some (st', g) ->
  g <> Failed /\ forall e, g = Recorded e ->
    e_time e = (Z.of_N (k_sec k) * 10 ^ 9 + Z.of_N (k_sub k))%Z /\ e_src e = v4_prefix ++ src /\ e_dst e = v4_prefix ++ dst /\
    (e_sport e, e_dport e) = fst (tports x) /\ e_payload e = ipv4 n mid (tproto x) sum src dst options (tbytes x) /\
    e_cid e = (if c_community c then Some (community_id sha1 (tflow (v4_prefix ++ src) (v4_prefix ++ dst) x) 0) else None).
Proof.
  intros sha1 c st st' g k macs tags s n mid sum src dst options x T M Hn Hm Hs Hsrc Hdst Ho W B D L H.
  destruct (parse_ipv4 k macs tags s n mid sum src dst options x T M Hn Hm Hs Hsrc Hdst Ho W B D L) as (P & Q & _). unfold handle in H. rewrite P, Q in H. cbv zeta in H.
  destruct (update_flow _ _ _ _ _) as [ [t1 ok]|]; [|discriminate]. destruct ok; [|injection H as _ <-; split; [discriminate|intros e E; discriminate] ].
  destruct (shrink_to_max_size _ _ _) as [t3|]; [|discriminate]. injection H as _ <-. split; [discriminate|]. intros e E. injection E as <-. cbn [e_time e_src e_dst e_sport e_dport e_payload e_cid].
  unfold tflow. destruct (tports x) as [ [sp dp] p]. cbn. repeat split.
Qed.

(** Nothing undefined happens with such frames, after any packets. *)
Theorem C71_defined : forall sha1 c pre st gs k macs tags s n mid sum src dst options x,
  tagged tags s -> length macs = 12%nat -> (n <= 10)%nat -> length mid = 8%nat -> length sum = 2%nat -> length src = 4%nat -> length dst = 4%nat -> length options = (4 * n)%nat ->
  whole x -> N.of_nat (length (tbytes x)) < 2 ^ 64 ->
  k_data k = ethernet macs tags 0x0800 (ipv4 n mid (tproto x) sum src dst options (tbytes x)) -> k_len k = length (k_data k) ->
  (0 < c_max c)%nat -> feed sha1 c fresh pre = Some (st, gs) -> handle sha1 c st k <> None.
Proof.
  intros sha1 c pre st gs k macs tags s n mid sum src dst options x T M Hn Hm Hs Hsrc Hdst Ho W B D L C F.
  destruct (parse_ipv4 k macs tags s n mid sum src dst options x T M Hn Hm Hs Hsrc Hdst Ho W B D L) as (P & _ & Q).
  eapply handle_defined; [|exact C|now symmetry|exact P|intros f s0 l3 E; injection E as _ _ <-; exact Q]. apply (feed_fine sha1 c pre [] fresh st gs (fresh_fine c) F).
Qed.

(** The payload of a flow, by the packets: what [parse] reports, which is for the frames of
    [C71_frame] the bytes behind the header of layer 4. *)
Theorem C71_payload : forall k macs tags s n mid sum src dst options x,
  tagged tags s -> length macs = 12%nat -> (n <= 10)%nat -> length mid = 8%nat -> length sum = 2%nat -> length src = 4%nat -> length dst = 4%nat -> length options = (4 * n)%nat ->
  whole x -> N.of_nat (length (tbytes x)) < 2 ^ 64 ->
  k_data k = ethernet macs tags 0x0800 (ipv4 n mid (tproto x) sum src dst options (tbytes x)) -> k_len k = length (k_data k) ->
  sized k = Some (tflow (v4_prefix ++ src) (v4_prefix ++ dst) x, N.of_nat (length (tbytes x)) - theader x).
Proof.
  intros k macs tags s n mid sum src dst options x T M Hn Hm Hs Hsrc Hdst Ho W B D L.
  destruct (parse_ipv4 k macs tags s n mid sum src dst options x T M Hn Hm Hs Hsrc Hdst Ho W B D L) as (P & _). unfold sized. now rewrite P.
Qed.

(** ** The cutoff *)

(** No packet is left out before the flow has had as many bytes as configured, whatever is
    evicted and however packets are timed. *)
Theorem C71_not_before : forall sha1 c pre st gs k st' f s l3, feed sha1 c fresh pre = Some (st, gs) -> parse k = Some (PFlow f s l3) -> handle sha1 c st k = Some (st', Skipped) ->
  c_cutoff c <= spent f pre.
Proof.
  intros sha1 c pre st gs k st' f s l3 F P H. pose proof (feed_fine sha1 c pre [] fresh st gs (fresh_fine c) F) as I. cbn [app] in I.
  destruct (handle_fine sha1 c pre k st st' Skipped I H) as [_ Q]. exact (Q eq_refl f s l3 P).
Qed.

(** With fewer flows than configured, packets in order, and a flow that is never idle for longer
    than configured, a packet of the flow is left out if and only if the flow has had as many
    bytes as configured. *)
Theorem C71_cutoff : forall sha1 c pre k st gs st' g f s l3 fs, parse k = Some (PFlow f s l3) ->
  (length fs < c_max c)%nat -> Forall (within fs) (pre ++ [k]) -> ordered 0 (pre ++ [k]) -> steady (c_age c) f None (pre ++ [k]) ->
  feed sha1 c fresh pre = Some (st, gs) -> handle sha1 c st k = Some (st', g) ->
  (g = Skipped <-> c_cutoff c <= spent f pre) /\ g <> Failed.
Proof.
  intros sha1 c pre k st gs st' g f s l3 fs P M W O S F H. apply Forall_app in W. destruct W as [W1 W2].
  assert (I : exact c fs f 0 None 0 (t_flows fresh)) by (split; [constructor|intros g0 []|reflexivity|reflexivity]).
  assert (Op : forall a now b, ordered now (a ++ b) -> ordered now a). { induction a as [|p a IH]; intros now b X; [exact Logic.I|]. cbn [app ordered] in *. split; [apply X|]. eapply IH, X. }
  assert (Sp : forall a last b, steady (c_age c) f last (a ++ b) -> steady (c_age c) f last a /\ steady (c_age c) f (fold_left (seen f) a last) b).
  { induction a as [|p a IH]; intros last b X; [now split|]. cbn [app steady fold_left] in *. destruct X as [X1 X2]. apply IH in X2. split; [split; [exact X1|apply X2]|apply X2]. }
  destruct (Sp _ _ _ S) as [S1 S2]. destruct (feed_exact sha1 c fs f pre 0 None 0 fresh st gs M W1 I (Op _ _ _ O) S1 F) as (now' & J & R). cbn [N.add] in J. apply R in O. cbn [ordered] in O. destruct O as [O _].
  cbn [steady] in S2. destruct S2 as [S2 _]. destruct (handle_exact sha1 c fs f now' _ _ st k st' g M (Forall_inv W2) J O S2 H) as [_ Q]. exact (Q s l3 P).
Qed.

(** At most as many flows as configured are kept, unless everything is cut off. *)
Theorem C71_flows : forall sha1 c ks st gs, 0 < c_cutoff c -> feed sha1 c fresh ks = Some (st, gs) -> (length (t_flows st) <= c_max c)%nat.
Proof.
  intros sha1 c ks st gs C. assert (G : forall ks st0 st gs, (length (t_flows st0) <= c_max c)%nat -> feed sha1 c st0 ks = Some (st, gs) -> (length (t_flows st) <= c_max c)%nat); [|intros F; eapply G, F; cbn; lia].
  clear ks st gs. induction ks as [|k ks IH]; intros st0 st gs L F; cbn [feed] in F; [now injection F as <- _|]. destruct (handle sha1 c st0 k) as [ [st1 g]|] eqn:E; [|discriminate].
  destruct (feed sha1 c st1 ks) as [ [st2 gs']|] eqn:F2; [|discriminate]. injection F as <- _. eapply IH; [|exact F2]. eapply handle_size; eassumption.
Qed.

(** ** Slices *)

(** However often and for however many events the source asks: the slices hold the events of the
    packets that were taken from the input, in their order and each once; slices are not empty and
    not larger than asked for, and there are not more events than asked for.  Unless there was an
    error no event stays behind. *)
Theorem C71_stream : forall sha1 c calls ins s res r' rest, Forall (fun nm => 0 < snd nm)%nat calls -> session sha1 c calls new_reader ins = Some (s, res, r', rest) ->
  exists used gs, ins = used ++ rest /\ feed sha1 c fresh (packets used) = Some (r_state r', gs) /\ recorded gs = concat s ++ r_rows r' /\
    Forall (fun x => exists nm, In nm calls /\ (1 <= length x <= snd nm)%nat) s /\ (res = ROk \/ res = RTimeout \/ res = REnd -> recorded gs = concat s) /\ (length (concat s) <= list_sum (map fst calls))%nat.
Proof.
  intros sha1 c calls ins s res r' rest F H. destruct (session_spec sha1 c calls new_reader ins s res r' rest F eq_refl H) as (used & gs & A1 & A2 & A3 & A4 & A5 & A6).
  exists used, gs. repeat split; try assumption. intros X. rewrite A3, (A5 X). apply app_nil_r.
Qed.

(** ** Community identifiers *)

(** Both directions of a flow have one identifier. *)
Theorem C71_direction : forall sha1 f seed, length (f_src f) = length (f_dst f) -> f_proto f <> p_icmp -> f_proto f <> p_icmp6 ->
  community_id sha1 (turned f) seed = community_id sha1 f seed.
Proof.
  intros sha1 f seed L N1 N2. unfold community_id. do 4 f_equal. unfold p_icmp, p_icmp6 in *.
  assert (E : forall g, f_proto g = f_proto f -> norm_ports g = (f_sport g, f_dport g, false)). { intros g G. unfold norm_ports, p_icmp, p_icmp6. rewrite G. replace (f_proto f =? 1) with false by lia. now replace (f_proto f =? 58) with false by lia. }
  rewrite (hash_either f _ _ (E f eq_refl)), (hash_either (turned f) _ _ (E (turned f) eq_refl)). cbn [turned f_src f_dst f_sport f_dport f_proto]. symmetry. now apply either_turn.
Qed.

(** An ICMP request and its reply, whatever their codes, have one identifier. *)
Theorem C71_reply : forall sha1 f seed u code, length (f_src f) = length (f_dst f) -> f_sport f < 256 ->
  (f_proto f = p_icmp /\ dual4 (f_sport f) = Some u) \/ (f_proto f = p_icmp6 /\ dual6 (f_sport f) = Some u) ->
  community_id sha1 {| f_src := f_dst f; f_dst := f_src f; f_sport := u; f_dport := code; f_proto := f_proto f |} seed = community_id sha1 f seed.
Proof.
  intros sha1 f seed u code L B H. unfold community_id. do 4 f_equal. set (g := {| f_src := f_dst f; f_dst := f_src f; f_sport := u; f_dport := code; f_proto := f_proto f |}).
  assert (E : norm_ports f = (f_sport f, u, false) /\ norm_ports g = (u, f_sport f, false)).
  { unfold norm_ports. cbn [g f_proto f_sport f_dport]. rewrite (N.mod_small (f_sport f)) by exact B. destruct H as [ [P D]|[P D] ]; rewrite P, D.
    - destruct (dual4_dual _ _ D) as [D' U]. rewrite (N.mod_small u) by exact U. rewrite D'. now split.
    - destruct (dual6_dual _ _ D) as [D' U]. rewrite (N.mod_small u) by exact U. rewrite D'. now split. }
  rewrite (hash_either f _ _ (proj1 E)), (hash_either g _ _ (proj2 E)). cbn [g f_src f_dst f_proto]. symmetry. now apply either_turn.
Qed.

(** What is hashed tells flows apart: it is the same only for the two directions of one flow. *)
Theorem C71_distinct : forall f g, like (f_src f) (f_dst f) -> like (f_src g) (f_dst g) -> f_sport f < 65536 -> f_dport f < 65536 -> f_sport g < 65536 -> f_dport g < 65536 ->
  f_proto f <> p_icmp -> f_proto f <> p_icmp6 -> f_proto g <> p_icmp -> f_proto g <> p_icmp6 -> hash_input f = hash_input g -> g = f \/ g = turned f.
Proof.
  intros f g Lf Lg F1 F2 G1 G2 P1 P2 P3 P4 H. unfold p_icmp, p_icmp6 in *.
  assert (E : forall x, f_proto x <> 1 -> f_proto x <> 58 -> norm_ports x = (f_sport x, f_dport x, false)). { intros x X1 X2. unfold norm_ports, p_icmp, p_icmp6. replace (f_proto x =? 1) with false by lia. now replace (f_proto x =? 58) with false by lia. }
  rewrite (hash_either f _ _ (E f P1 P2)), (hash_either g _ _ (E g P3 P4)) in H. unfold either in H.
  assert (Sw : forall a b, like a b -> like b a) by (intros a b (A & B & C); now repeat split).
  destruct f as [a b x y p], g as [a' b' x' y' p']. unfold turned. cbn [f_src f_dst f_sport f_dport f_proto] in *.
  destruct (bytes_ltb a b || (bytes_eqb a b && (x <? y))), (bytes_ltb a' b' || (bytes_eqb a' b' && (x' <? y')));
    apply packed_inj in H; auto; destruct H as (-> & -> & -> & -> & ->); auto.
Qed.

(** What is published as version 1 of community identifiers: the bytes of the endpoint that is lower
    as a number come first, then those of the other; ICMP messages have their counterpart as second
    port, and the direction is kept if there is none. *)
Definition value (bs : list N) : N := fold_left (fun v b => v * 256 + b) bs 0.
Definition counterparts4 : list (N * N) := [(8, 0); (13, 14); (15, 16); (10, 9); (17, 18)].
Definition counterparts6 : list (N * N) := [(128, 129); (130, 131); (133, 134); (135, 136); (139, 140); (144, 145)].
Definition counterpart (l : list (N * N)) (t u : N) : Prop := In (t, u) l \/ In (u, t) l.
Inductive ends (f : flow) : N -> N -> bool -> Prop :=
| ends_ports : f_proto f <> 1 -> f_proto f <> 58 -> ends f (f_sport f) (f_dport f) true
| ends_icmp : forall u, f_proto f = 1 -> counterpart counterparts4 (f_sport f) u -> ends f (f_sport f) u true
| ends_icmp6 : forall u, f_proto f = 58 -> counterpart counterparts6 (f_sport f) u -> ends f (f_sport f) u true
| ends_one : f_proto f = 1 -> (forall u, ~ counterpart counterparts4 (f_sport f) u) -> ends f (f_sport f) (f_dport f) false
| ends_one6 : f_proto f = 58 -> (forall u, ~ counterpart counterparts6 (f_sport f) u) -> ends f (f_sport f) (f_dport f) false.
Inductive wire : address -> list N -> Prop :=
| wire4 : forall w, length w = 4%nat -> wire (v4_prefix ++ w) w
| wire6 : forall a, firstn 12 a <> v4_prefix -> wire a a.

Lemma value_app : forall bs v, fold_left (fun v b => v * 256 + b) bs v = v * 256 ^ N.of_nat (length bs) + value bs.
Proof.
  unfold value. induction bs as [|b bs IH]; intros v; [cbn; lia|]. cbn [fold_left length]. rewrite IH, (IH (0 * 256 + b)). rewrite Nat2N.inj_succ, N.pow_succ_r'. lia.
Qed.
Lemma value_bound : forall bs, Forall (fun b => b < 256) bs -> value bs < 256 ^ N.of_nat (length bs).
Proof.
  induction bs as [|b bs IH]; intros F; [reflexivity|]. specialize (IH (Forall_inv_tail F)). pose proof (Forall_inv F) as B. unfold value. cbn [fold_left length]. rewrite value_app, Nat2N.inj_succ, N.pow_succ_r'.
  cbv beta in B. nia.
Qed.
Lemma bytes_ltb_value : forall a b, length a = length b -> Forall (fun b => b < 256) a -> Forall (fun b => b < 256) b -> bytes_ltb a b = (value a <? value b).
Proof.
  induction a as [|x a IH]; intros [|y b] L A B; try discriminate; [reflexivity|]. injection L as L. unfold value. cbn [bytes_ltb fold_left]. rewrite !value_app, L.
  rewrite (IH b L (Forall_inv_tail A) (Forall_inv_tail B)). pose proof (value_bound a (Forall_inv_tail A)) as VA. pose proof (value_bound b (Forall_inv_tail B)) as VB. rewrite L in VA.
  set (m := 256 ^ N.of_nat (length b)) in *. destruct (N.ltb_spec x y); [symmetry; apply N.ltb_lt; nia|]. destruct (N.ltb_spec y x); [symmetry; apply N.ltb_ge; nia|].
  replace y with x by lia. destruct (N.ltb_spec (value a) (value b)), (N.ltb_spec ((0 * 256 + x) * m + value a) ((0 * 256 + x) * m + value b)); try reflexivity; lia.
Qed.
Lemma value_inj : forall a b, length a = length b -> Forall (fun b => b < 256) a -> Forall (fun b => b < 256) b -> value a = value b -> a = b.
Proof. intros a b L A B E. apply ltb_total; [exact L| |]; rewrite bytes_ltb_value; auto; apply N.ltb_ge; lia. Qed.
Lemma dual4_counterpart : forall t u, dual4 t = Some u <-> counterpart counterparts4 t u.
Proof.
  intros t u. unfold counterpart, counterparts4. cbn [In]. split.
  - intros H. unfold dual4 in H. repeat match type of H with match ?e with _ => _ end = _ => destruct e; try discriminate end; injection H as <-; tauto.
  - intros H. repeat match goal with H : _ \/ _ |- _ => destruct H as [H|H] end; try contradiction; injection H as <- <-; reflexivity.
Qed.
Lemma dual6_counterpart : forall t u, dual6 t = Some u <-> counterpart counterparts6 t u.
Proof.
  intros t u. unfold counterpart, counterparts6. cbn [In]. split.
  - intros H. unfold dual6 in H. repeat match type of H with match ?e with _ => _ end = _ => destruct e; try discriminate end; injection H as <-; tauto.
  - intros H. repeat match goal with H : _ \/ _ |- _ => destruct H as [H|H] end; try contradiction; injection H as <- <-; reflexivity.
Qed.
Lemma addr_wire : forall a, length a = 16%nat -> wire a (addr_bytes a).
Proof.
  intros a L. unfold addr_bytes, is_v4. destruct (bytes_eqb (firstn 12 a) v4_prefix) eqn:E.
  - apply AddressProofs.bytes_eqb_spec in E. rewrite <- (firstn_skipn 12 a) at 1. rewrite E. apply wire4. rewrite skipn_length. lia.
  - apply wire6. intros X. rewrite X, AddressProofs.bytes_eqb_refl in E. discriminate.
Qed.
Lemma wire_fun : forall a v w, wire a v -> wire a w -> v = w.
Proof.
  intros a v w V W. destruct V as [v V|a V]; inversion W as [w' W' E|a' W' E]; subst; auto.
  - exfalso. apply W'. reflexivity.
  - exfalso. apply V. reflexivity.
Qed.
Lemma norm_ends : forall f x y two, f_sport f < 256 \/ f_proto f <> 1 /\ f_proto f <> 58 -> ends f x y two -> norm_ports f = (x, y, negb two).
Proof.
  intros f x y two B E. unfold norm_ports, p_icmp, p_icmp6. destruct E as [A C|u A C|u A C|A C|A C].
  - replace (f_proto f =? 1) with false by lia. now replace (f_proto f =? 58) with false by lia.
  - rewrite A. cbn [N.eqb]. rewrite N.mod_small by lia. apply dual4_counterpart in C. change (1 =? 1) with true. cbv iota. now rewrite C.
  - rewrite A. change (58 =? 1) with false. change (58 =? 58) with true. cbv iota. rewrite N.mod_small by lia. apply dual6_counterpart in C. now rewrite C.
  - rewrite A. change (1 =? 1) with true. cbv iota. rewrite N.mod_small by lia. destruct (dual4 (f_sport f)) as [u|] eqn:D; [|reflexivity]. exfalso. apply (C u). now apply dual4_counterpart.
  - rewrite A. change (58 =? 1) with false. change (58 =? 58) with true. cbv iota. rewrite N.mod_small by lia. destruct (dual6 (f_sport f)) as [u|] eqn:D; [|reflexivity]. exfalso. apply (C u). now apply dual6_counterpart.
Qed.
Theorem C71_published : forall sha1 f seed x y two va vb, length (f_src f) = 16%nat -> length (f_dst f) = 16%nat -> Forall (fun b => b < 256) (f_src f) -> Forall (fun b => b < 256) (f_dst f) ->
  f_sport f < 256 \/ f_proto f <> 1 /\ f_proto f <> 58 -> ends f x y two -> wire (f_src f) va -> wire (f_dst f) vb ->
  let u := value (f_src f) in let v := value (f_dst f) in
  community_id sha1 f seed = [49; 58] ++ encode (sha1 ([seed / 256; seed mod 256] ++
    if two && ((v <? u) || ((v =? u) && (y <? x))) then vb ++ va ++ [f_proto f; 0; y / 256; y mod 256; x / 256; x mod 256]
    else va ++ vb ++ [f_proto f; 0; x / 256; x mod 256; y / 256; y mod 256])).
Proof.
  intros sha1 f seed x y two va vb La Lb Fa Fb B E Wa Wb u v. unfold community_id. do 4 f_equal. unfold hash_input. rewrite (norm_ends f x y two B E).
  rewrite (wire_fun _ _ _ Wa (addr_wire _ La)), (wire_fun _ _ _ Wb (addr_wire _ Lb)). destruct two; cbn [negb andb orb]; [|reflexivity].
  rewrite (bytes_ltb_value _ _ (eq_trans La (eq_sym Lb)) Fa Fb). fold u v.
  assert (Q : bytes_eqb (f_src f) (f_dst f) = (u =? v)).
  { destruct (bytes_eqb (f_src f) (f_dst f)) eqn:X.
    - apply AddressProofs.bytes_eqb_spec in X. unfold u, v. rewrite X. symmetry. apply N.eqb_refl.
    - symmetry. apply N.eqb_neq. intros Z. apply value_inj in Z; [|congruence|assumption|assumption]. rewrite Z, AddressProofs.bytes_eqb_refl in X. discriminate. }
  rewrite Q. destruct (N.ltb_spec u v) as [U|U]; cbn [orb].
  - replace (v <? u) with false by lia. replace (v =? u) with false by lia. reflexivity.
  - destruct (N.eqb_spec u v) as [Z|Z]; cbn [andb orb].
    + replace (v <? u) with false by lia. replace (v =? u) with true by lia. cbn [orb andb]. assert (P : f_src f = f_dst f) by (apply value_inj; [congruence|assumption|assumption|exact Z]).
      rewrite P. destruct (N.ltb_spec x y), (N.ltb_spec y x); try reflexivity; [lia|]. replace y with x by lia. reflexivity.
    + replace (v <? u) with true by lia. reflexivity.
Qed.

(** ** Writing *)
Definition says (e : event) (d : dumped) : Prop :=
  (d_sec d * 10 ^ 9 + d_sub d = e_time e)%Z /\ (0 <= d_sub d < 10 ^ 9)%Z /\ d_bytes d = e_payload e /\ d_caplen d = N.of_nat (length (e_payload e)) /\ d_len d = d_caplen d.
(** Events with an identifier become records of the trace, in their order and each once, with
    their time and their bytes. *)
Theorem C71_written : forall interval slices, (0 < interval)%nat ->
  Forall (fun e => e_cid e <> None /\ (0 <= e_time e)%Z /\ N.of_nat (length (e_payload e)) < 2 ^ 32) (concat slices) ->
  exists w, write_all interval new_writer slices = Some w /\ Forall2 says (concat slices) (w_out w).
Proof.
  intros interval slices I. assert (D : forall es, Forall (fun e => e_cid e <> None /\ (0 <= e_time e)%Z /\ N.of_nat (length (e_payload e)) < 2 ^ 32) es -> exists ds, dump_all es = Some ds /\ Forall2 says es ds).
  { induction es as [|e es IH]; intros F; [exists []; split; [reflexivity|constructor]|]. destruct (IH (Forall_inv_tail F)) as (ds & E & G). destruct (Forall_inv F) as (C & T & B). cbn [dump_all]. rewrite E. unfold dump, columns.
    destruct (e_cid e) as [cid|]; [|contradiction]. cbn [app nth_error]. eexists. split; [reflexivity|]. constructor; [|exact G]. unfold says. cbn [d_sec d_sub d_bytes d_caplen d_len].
    rewrite N.mod_small by exact B. pose proof (Z.quot_rem (e_time e) (10 ^ 9) ltac:(discriminate)) as Q. pose proof (Z.rem_bound_pos (e_time e) (10 ^ 9) T ltac:(reflexivity)) as R. repeat split; try lia. }
  assert (G : forall slices w es, Forall (fun e => e_cid e <> None /\ (0 <= e_time e)%Z /\ N.of_nat (length (e_payload e)) < 2 ^ 32) (concat slices) -> Forall2 says es (w_out w) ->
    exists w', write_all interval w slices = Some w' /\ Forall2 says (es ++ concat slices) (w_out w')).
  { clear slices. induction slices as [|s slices IH]; intros w es F W; [exists w; cbn; rewrite app_nil_r; now split|]. cbn [concat] in F. apply Forall_app in F. destruct F as [F1 F2]. destruct (D s F1) as (ds & E & Q). cbn [write_all]. unfold write. rewrite E.
    replace (interval =? 0)%nat with false by (symmetry; apply Nat.eqb_neq; lia). cbv zeta. cbn [concat]. rewrite app_assoc. apply IH; [exact F2|]. cbn [w_out]. now apply Forall2_app. }
  intros F. destruct (G slices new_writer [] F ltac:(constructor)) as (w & E & Q). exists w. now split.
Qed.

(** ** Cases *)

Definition none_drawn : nat -> nat := fun _ => 0%nat.
Definition zeros (n : nat) : list N := repeat 0 n.
(** A UDP packet from 192.168.0.[a] to 192.168.0.[b]. *)
Definition datagram (a b : N) (data : list N) : list N :=
  ipv4 0 (zeros 8) 17 [0; 0] [192; 168; 0; a] [192; 168; 0; b] [] (tbytes (Udp 5000 53 ([0; 0; 0; 0] ++ data))).
Definition captured (sec : N) (bytes : list N) : packet := {| k_data := bytes; k_len := length bytes; k_sec := sec; k_sub := 7; k_draw := none_drawn |}.
Definition udp (sec a b : N) (data : list N) : packet := captured sec (ethernet (zeros 12) [129; 0; 0; 9] 0x0800 (datagram a b data)).
Definition some_config (cutoff : N) (max : nat) : config := {| c_cutoff := cutoff; c_max := max; c_age := 60; c_expire := 10; c_community := true |}.
Definition id_sha1 (x : list N) : list N := x.
Definition run (c : config) (ks : list packet) : option (list got) := option_map snd (feed id_sha1 c fresh ks).
Definition kinds (gs : list got) : list nat := map (fun g => match g with Failed => 0 | Skipped => 1 | Recorded _ => 2 end)%nat gs.
Definition udp_flow (a b : N) : flow := tflow (v4_prefix ++ [192; 168; 0; a]) (v4_prefix ++ [192; 168; 0; b]) (Udp 5000 53 []).

Example C71_frame_example : option_map kinds (run (some_config 100 10) [udp 1000 1 2 [1; 2; 3]]) = Some [2]%nat /\
  exists x, k_data (udp 1000 1 2 [1; 2; 3]) = ethernet (zeros 12) [129; 0; 0; 9] 0x0800 (ipv4 0 (zeros 8) (tproto x) [0; 0] [192; 168; 0; 1] [192; 168; 0; 2] [] (tbytes x)) /\ whole x /\ tagged [129; 0; 0; 9] 4 /\
    sized (udp 1000 1 2 [1; 2; 3]) = Some (udp_flow 1 2, 3).
Proof. split; [vm_compute; reflexivity|]. exists (Udp 5000 53 [0; 0; 0; 0; 1; 2; 3]). split; [reflexivity|]. split; [cbn; lia|]. split; [constructor|vm_compute; reflexivity]. Qed.

(** Three packets of three bytes against a cutoff of five, among packets of another flow. *)
Definition trace : list packet := [udp 1000 1 2 [1; 2; 3]; udp 1000 3 4 [1]; udp 1030 1 2 [1; 2; 3]; udp 1050 3 4 [2]].
Example C71_cutoff_example : exists l3, parse (udp 1060 1 2 [1; 2; 3]) = Some (PFlow (udp_flow 1 2) 3 l3) /\
  Forall (within [udp_flow 1 2; udp_flow 3 4]) (trace ++ [udp 1060 1 2 [1; 2; 3]]) /\ ordered 0 (trace ++ [udp 1060 1 2 [1; 2; 3]]) /\ steady 60 (udp_flow 1 2) None (trace ++ [udp 1060 1 2 [1; 2; 3]]) /\
  spent (udp_flow 1 2) trace = 6 /\ option_map kinds (run (some_config 5 10) (trace ++ [udp 1060 1 2 [1; 2; 3]])) = Some [2; 2; 2; 2; 1]%nat.
Proof.
  exists 18%nat. split; [vm_compute; reflexivity|]. split.
  - unfold trace; cbn [app]. repeat (apply Forall_cons; [intros g s H; vm_compute in H; injection H as <- <-; vm_compute; auto|]). apply Forall_nil.
  - split; [cbn; repeat split; discriminate|]. split; [vm_compute; repeat split; discriminate|]. split; vm_compute; reflexivity.
Qed.
Example C71_stream_example : exists s r', session id_sha1 (some_config 100 10) [(3, 2); (3, 2); (3, 2)]%nat new_reader (map IPacket trace ++ [ILate; IEnd]) = Some (s, REnd, r', []) /\ map (@length event) s = [2; 1; 1]%nat.
Proof. eexists. eexists. split; vm_compute; reflexivity. Qed.
Example C71_direction_example : length (f_src (udp_flow 1 2)) = length (f_dst (udp_flow 1 2)) /\ f_proto (udp_flow 1 2) = 17 /\ turned (udp_flow 1 2) <> udp_flow 1 2 /\ like (f_src (udp_flow 1 2)) (f_dst (udp_flow 1 2)) /\
  dual4 8 = Some 0 /\ dual6 128 = Some 129.
Proof. repeat split; discriminate. Qed.
(** An echo request, which is ordered, and a message that has no reply, which is not. *)
Example C71_published_example : let f t := {| f_src := v4_prefix ++ [10; 0; 0; 2]; f_dst := v4_prefix ++ [10; 0; 0; 1]; f_sport := t; f_dport := 3; f_proto := 1 |} in
  ends (f 8) 8 0 true /\ ends (f 3) 3 3 false /\ wire (f_src (f 8)) [10; 0; 0; 2] /\ (value (f_dst (f 8)) <? value (f_src (f 8))) = true /\
  hash_input (f 8) = [10; 0; 0; 1; 10; 0; 0; 2; 1; 0; 0; 0; 0; 8] /\ hash_input (f 3) = [10; 0; 0; 2; 10; 0; 0; 1; 1; 0; 0; 3; 0; 3].
Proof.
  cbv zeta. split; [apply ends_icmp; [reflexivity|left; now left]|]. split.
  - apply (ends_one {| f_src := v4_prefix ++ [10; 0; 0; 2]; f_dst := v4_prefix ++ [10; 0; 0; 1]; f_sport := 3; f_dport := 3; f_proto := 1 |}); [reflexivity|]. intros u H. apply dual4_counterpart in H. discriminate.
  - split; [now apply wire4|]. repeat split.
Qed.
Example C71_written_example : exists e, run (some_config 100 10) [udp 1000 1 2 [1; 2; 3]] = Some [Recorded e] /\ e_cid e <> None /\ (0 <= e_time e)%Z /\ N.of_nat (length (e_payload e)) < 2 ^ 32 /\ e_time e = 1000000000007%Z.
Proof. eexists. split; [vm_compute; reflexivity|]. repeat split; discriminate. Qed.

(** ** Where the code does something else *)

(** Of IPv6 addresses only the first four bytes are recorded, as an IPv4 address. *)
Definition udp6 (src dst : list N) : packet := captured 1000 (ethernet (zeros 12) [] 0x86DD ([96; 0; 0; 0; 0; 8; 17; 64] ++ src ++ dst ++ tbytes (Udp 5000 53 (zeros 4)))).
Theorem C71_v6_refuted : exists src src' dst, length src = 16%nat /\ length src' = 16%nat /\ length dst = 16%nat /\ src <> src' /\
  exists e e', run (some_config 100 10) [udp6 src dst] = Some [Recorded e] /\ run (some_config 100 10) [udp6 src' dst] = Some [Recorded e'] /\
    e_src e = e_src e' /\ e_src e = v4_prefix ++ firstn 4 src /\ e_cid e = e_cid e'.
Proof.
  exists ([32; 1; 13; 184] ++ zeros 11 ++ [1]), ([32; 1; 13; 184] ++ zeros 11 ++ [2]), ([32; 1; 13; 184] ++ zeros 11 ++ [3]). do 3 (split; [reflexivity|]). split; [discriminate|].
  eexists. eexists. split; [vm_compute; reflexivity|]. split; [vm_compute; reflexivity|]. repeat split.
Qed.
(** A packet that was captured in part is read beyond what was captured. *)
Theorem C71_snaplen_refuted : exists k n, sized k = Some (udp_flow 1 2, 3) /\ (14 + 20 + 8 <= n < k_len k)%nat /\
  forall sha1 c st, handle sha1 (some_config (100 + c) 10) {| t_flows := []; t_expire := st |} {| k_data := firstn n (k_data k); k_len := k_len k; k_sec := k_sec k; k_sub := k_sub k; k_draw := k_draw k |} = None.
Proof.
  exists (udp 1000 1 2 [1; 2; 3]), 48%nat. split; [vm_compute; reflexivity|]. split; [vm_compute; lia|]. intros sha1 c st. unfold handle.
  match goal with |- context [parse ?k] => assert (P : parse k = Some (PFlow (udp_flow 1 2) 3 18)) by (vm_compute; reflexivity); rewrite P; assert (B : bytes_at k 18 (k_len k - 18) = None) by (vm_compute; reflexivity) end.
  cbv zeta. unfold update_flow. cbn [look t_flows c_cutoff some_config]. destruct (N.eqb_spec 0 (100 + c)); [lia|]. replace (100 + c <? 0) with false by lia.
  match goal with |- context [bytes_at ?k 18 ?n] => change (bytes_at k 18 n) with (bytes_at k 18 (k_len k - 18)) end. rewrite B. now destruct (shrink_to_max_size _ _ _).
Qed.
(** A frame that is too short ends the import; the events before it that are not yet in a slice
    are lost and the packets behind it are not read. *)
Theorem C71_short_refuted : exists good bad r', option_map kinds (run (some_config 100 10) [good; good]) = Some [2; 2]%nat /\
  session id_sha1 (some_config 100 10) [(100, 100)]%nat new_reader [IPacket good; IPacket bad; IPacket good; IEnd] = Some ([], RError, r', [IPacket good; IEnd]) /\ length (r_rows r') = 1%nat.
Proof. exists (udp 1000 1 2 [1; 2; 3]), (captured 1000 [1; 2; 3]). eexists. split; [vm_compute; reflexivity|]. split; vm_compute; reflexivity. Qed.
(** A short frame with a VLAN tag is undefined. *)
Theorem C71_tag_refuted : exists k, length (k_data k) = k_len k /\ (14 <= k_len k)%nat /\ parse k = None.
Proof. exists (captured 1000 (zeros 12 ++ [129; 0; 0; 9; 8])). split; [reflexivity|]. split; [vm_compute; lia|vm_compute; reflexivity]. Qed.
(** The packet that reaches the cutoff is recorded whole. *)
Theorem C71_whole_refuted : exists c k e f, c_cutoff c < spent f [k] /\ run c [k] = Some [Recorded e] /\ e_payload e = skipn 18 (k_data k).
Proof. exists (some_config 1 10), (udp 1000 1 2 [1; 2; 3]). eexists. exists (udp_flow 1 2). split; [vm_compute; reflexivity|]. split; vm_compute; reflexivity. Qed.
(** With as many flows as configured, flows go on after the cutoff. *)
Theorem C71_evicted_refuted : exists c ks k f, c_max c = 2%nat /\ Forall (within [f; udp_flow 3 4]) (ks ++ [k]) /\ c_cutoff c <= spent f ks /\ sized k = Some (f, 3) /\ option_map kinds (run c (ks ++ [k])) = Some [2; 2; 2]%nat.
Proof.
  exists (some_config 3 2), [udp 1000 1 2 [1; 2; 3]; udp 1000 3 4 [1]], (udp 1000 1 2 [1; 2; 3]), (udp_flow 1 2). split; [reflexivity|]. split.
  - unfold trace; cbn [app]. repeat (apply Forall_cons; [intros g s H; vm_compute in H; injection H as <- <-; vm_compute; auto|]). apply Forall_nil.
  - split; [vm_compute; discriminate|]. split; vm_compute; reflexivity.
Qed.
(** And so do all flows when a packet is a second older than the one before. *)
Theorem C71_backwards_refuted : exists c ks k f, Forall (within [f; udp_flow 3 4]) (ks ++ [k]) /\ (2 < c_max c)%nat /\ Forall (fun p => 999 <= k_sec p <= 1000) (ks ++ [k]) /\ c_age c = 60 /\
  c_cutoff c <= spent f ks /\ sized k = Some (f, 3) /\ option_map kinds (run c (ks ++ [k])) = Some [2; 2; 2]%nat.
Proof.
  exists (some_config 3 10), [udp 1000 1 2 [1; 2; 3]; udp 999 3 4 [1]], (udp 1000 1 2 [1; 2; 3]), (udp_flow 1 2). split.
  - unfold trace; cbn [app]. repeat (apply Forall_cons; [intros g s H; vm_compute in H; injection H as <- <-; vm_compute; auto|]). apply Forall_nil.
  - split; [vm_compute; lia|]. split; [repeat constructor; vm_compute; discriminate|]. split; [reflexivity|]. split; [vm_compute; discriminate|]. split; vm_compute; reflexivity.
Qed.
(** With a cutoff of zero the number of flows is not limited. *)
Theorem C71_zero_refuted : exists c ks st gs, c_max c = 1%nat /\ feed id_sha1 c fresh ks = Some (st, gs) /\ length (t_flows st) = 3%nat.
Proof. exists (some_config 0 1), [udp 1000 1 2 []; udp 1000 3 4 []; udp 1000 5 6 []]. eexists. eexists. split; [reflexivity|]. split; vm_compute; reflexivity. Qed.
(** With a limit of zero flows the first packet is never finished. *)
Theorem C71_hang_refuted : exists k f, sized k = Some (f, 3) /\ run (some_config 100 0) [k] = None /\ option_map kinds (run (some_config 100 1) [k]) = Some [2]%nat.
Proof. exists (udp 1000 1 2 [1; 2; 3]), (udp_flow 1 2). repeat split; vm_compute; reflexivity. Qed.
(** Events without identifier cannot be written. *)
Theorem C71_export_refuted : exists c k e, c_community c = false /\ run c [k] = Some [Recorded e] /\ forall interval, write interval new_writer [e] = None.
Proof. exists {| c_cutoff := 100; c_max := 10; c_age := 60; c_expire := 10; c_community := false |}, (udp 1000 1 2 [1; 2; 3]). eexists. split; [reflexivity|]. split; [vm_compute; reflexivity|]. intros interval. reflexivity. Qed.
(** Flushing counts slices instead of packets. *)
Theorem C71_flush_refuted : exists interval slice w, (interval <= length slice)%nat /\ write interval new_writer slice = Some w /\ length (w_out w) = length slice /\ w_flushed w = 0%nat.
Proof.
  exists 2%nat. destruct (run (some_config 100 10) [udp 1000 1 2 [1; 2; 3]]) as [ [|[| |e] [|]]|] eqn:E; try (vm_compute in E; discriminate). exists [e; e]. vm_compute in E. injection E as <-.
  eexists. split; [cbn; lia|]. split; [vm_compute; reflexivity|]. split; reflexivity.
Qed.
(** A trace that was written is not read again: it has no Ethernet frames. *)
Theorem C71_again_refuted : exists k e d, run (some_config 100 10) [k] = Some [Recorded e] /\ dump e = Some d /\ option_map kinds (run (some_config 100 10) [as_packet none_drawn d]) = Some [1]%nat.
Proof. exists (udp 1000 1 2 [1; 2; 3]). eexists. eexists. split; [vm_compute; reflexivity|]. split; vm_compute; reflexivity. Qed.

Definition assumptions_pcap := (C71_frame, C71_defined, C71_payload, C71_not_before, C71_cutoff, C71_flows, C71_stream, C71_direction, C71_reply, C71_distinct, C71_published, C71_written,
  C71_v6_refuted, C71_snaplen_refuted, C71_short_refuted, C71_tag_refuted, C71_whole_refuted, C71_evicted_refuted, C71_backwards_refuted, C71_zero_refuted, C71_hang_refuted,
  C71_export_refuted, C71_flush_refuted, C71_again_refuted).
Print Assumptions assumptions_pcap.
