(** C57 and C58: schemas as text and the resolution of type definitions. *)
From Coq Require Import String Ascii List ZArith NArith Bool Arith Lia Permutation.
From Coq Require Import ZifyBool ZifyNat ZifyN.
From Coq Require Import Init.Datatypes.
From Verif Require Import OperatorModel EscapeModel AddressModel AddressProofs DataModel TypeModel TypeProofs ExpressionModel LiteralModel LiteralProofs SyntaxModel TypeTextProofs SchemaModel SchemaProofs SchemaTextProofs.
Import ListNotations.
Open Scope N_scope.

(** * C57: types and schemas written as text are read back *)

(** A type without names in it is what its text is read as. Named types in it become references
    to their names. *)
Theorem C57_type : forall t n, readable t -> (length (show_type t) < n)%nat -> type_p n (show_type t) = Ok (reference t) [].
Proof.
  intros t n R Hn. pose proof (type_reads t n R) as H. pose proof (depth_length t R) as D. assert (K : (2 * depth t + 2 <= n)%nat) by lia.
  specialize (H K [] quiet_end). rewrite app_nil_r in H. apply H. right. right. reflexivity.
Qed.
Theorem C57_reference : forall t, parts t = [] -> reference t = t.
Proof.
  induction t as [|m|m b|m es|m v IHv|m kt vt IHk IHv|m fs IH|m v IHv] using ty_rect'; intros H; rewrite parts_eq in H; rewrite reference_eq.
  all: match goal with |- context [match ?y with [] => _ | _ => _ end] => destruct y as [|c x] eqn:NM end; try discriminate H; cbn [ref_kind]; try reflexivity.
  - now rewrite (IHv H).
  - apply app_eq_nil in H. destruct H as [H1 H2]. now rewrite (IHk H1), (IHv H2).
  - f_equal. clear NM. induction IH as [|f fs Hf IH IH2]; [reflexivity|]. cbn [flat_map] in H. apply app_eq_nil in H. destruct H as [H1 H2]. cbn [map]. rewrite (IH2 H2), (Hf H1). now destruct f.
Qed.
(** A schema whose types refer to types of the schema is read back from its text, whatever order
    the hash table has: all types, and no others. *)
Theorem C57_schema : forall s order n, writable s -> s <> [] -> (forall m, Permutation (order m) m) -> (length (show_schema s) <= n)%nat ->
  exists s', to_schema n order (show_schema s) = Ok s' [] /\ Permutation s' s.
Proof.
  intros s order n W NE O Hn. destruct (schema_reads s order n W NE O Hn) as (s' & E & P). exists s'. unfold to_schema. rewrite E. now split.
Qed.
(** So it is the same schema that arrives at another process. *)
Theorem C57_transmit : forall s order n, writable s -> (forall m, Permutation (order m) m) -> (length (show_schema s) <= n)%nat ->
  exists s', transmit n order s [] = Some s' /\ Permutation s' s.
Proof.
  intros s order n W O Hn. destruct s as [|t s]; [exists []; split; [reflexivity|constructor]|]. destruct (schema_reads (t :: s) order n W) as (s' & E & P); [discriminate|exact O|exact Hn|].
  exists s'. split; [|exact P]. unfold transmit. destruct (show_schema (t :: s)) eqn:X; [discriminate X|]. now rewrite E.
Qed.

Definition nm (x : string) : meta := {| m_name := chars x; m_attrs := [] |}.
Definition skip : list (list N * option (list N)) := [(chars "skip", None)].
Definition t_port : ty := TBasic {| m_name := chars "port"; m_attrs := [(chars "index", Some (chars "hash"))] |} BCount.
Definition t_peer : ty := TAlias (nm "peer") t_port.
Definition t_conn : ty := TRecord (nm "zeek.conn") [(chars "id", TRecord no_meta [(chars "orig_p", t_port); (chars "state", TEnum no_meta [chars "open"; chars "closed"])]);
  (chars "peers", TList {| m_name := []; m_attrs := skip |} t_peer); (chars "tags", TMap no_meta (TBasic no_meta BString) t_port)].
Definition s_sample : list ty := [t_conn; t_peer; t_port].
Ltac not_in := let H := fresh in intros H; vm_compute in H; repeat (destruct H as [H|H]; [discriminate H|]); destruct H.
Ltac name_ok := split; [split; [discriminate|split; [reflexivity|not_in] ]|not_in].
Lemma sample_writable : writable s_sample.
Proof.
  assert (P : readable t_port) by name_ok. assert (Q : readable t_peer) by name_ok. assert (E : attrs_ok []) by (split; constructor).
  split; [repeat (constructor; [not_in|]); constructor|]. constructor; [|constructor; [|constructor; [|constructor] ] ].
  - split; [split; [discriminate|reflexivity]|]. split; [exact Logic.I|]. split.
    + split; [exact E|]. split; [discriminate|]. split; [repeat (constructor; [split; [discriminate|reflexivity]|]); constructor|].
      cbn [fold_right snd]. split; [|split; [|split; [|exact Logic.I] ] ].
      * split; [exact E|]. split; [discriminate|]. split; [repeat (constructor; [split; [discriminate|reflexivity]|]); constructor|]. cbn [fold_right snd]. split; [exact P|]. split; [|exact Logic.I].
        split; [exact E|]. split; [discriminate|]. repeat (constructor; [split; [discriminate|reflexivity]|]). constructor.
      * split; [|exact Q]. split; [constructor; [split; [split; [discriminate|reflexivity]|exact Logic.I]|constructor]|]. constructor; [intros []|constructor].
      * split; [exact E|]. split; [exact E|exact P].
    + intros p H. unfold s_sample. cbn in H. destruct H as [<-|[<-|[<-|[] ] ] ]; [right; right; now left|right; now left|right; right; now left].
  - split; [split; [discriminate|reflexivity]|]. split; [split; [reflexivity|discriminate]|]. split; [exact P|]. intros p [<-|[] ]. right. right. now left.
  - split; [split; [discriminate|reflexivity]|]. split; [exact Logic.I|]. split; [|intros p []]. split; [|constructor; [intros []|constructor] ].
    constructor; [|constructor]. split; [split; [discriminate|reflexivity]|]. split; [discriminate|]. split; reflexivity.
Qed.
Example C57_example : writable s_sample /\ (forall m : symbols, Permutation (rev m) m) /\ (exists s', to_schema 200 (@rev _) (show_schema s_sample) = Ok s' [] /\ s' <> s_sample /\ length s' = 3%nat) /\
  show_schema [t_peer; t_port] = chars "type peer = port" ++ [10] ++ chars "type port = count #index=hash" ++ [10].
Proof.
  split; [exact sample_writable|]. split; [intros m; symmetry; apply Permutation_rev|]. split; [|reflexivity]. eexists. split; [vm_compute; reflexivity|]. split; [discriminate|reflexivity].
Qed.

(** Attributes that a field gives to a named type are lost. *)
Theorem C57_field_attribute_refuted : exists s s', transmit 200 (fun m => m) s [] = Some s' /\ length s' = length s /\ ~ Permutation s' s /\
  In (TRecord (nm "r") [(chars "x", TBasic {| m_name := chars "a"; m_attrs := skip |} BInteger)]) s /\ In (TRecord (nm "r") [(chars "x", TBasic (nm "a") BInteger)]) s'.
Proof.
  exists [TBasic (nm "a") BInteger; TRecord (nm "r") [(chars "x", TBasic {| m_name := chars "a"; m_attrs := skip |} BInteger)] ]. eexists. split; [vm_compute; reflexivity|]. split; [reflexivity|]. split.
  - intros P. apply Permutation_in with (x := TRecord (nm "r") [(chars "x", TBasic (nm "a") BInteger)]) in P; [|vm_compute; auto]. destruct P as [P|[P|[] ] ]; discriminate P.
  - split; vm_compute; auto.
Qed.
(** That schema is what the resolver makes of a text. *)
Theorem C57_twice_refuted : exists x s s', to_schema 200 (fun m => m) x = Ok s [] /\ to_schema 200 (fun m => m) (show_schema s) = Ok s' [] /\ ~ Permutation s' s.
Proof.
  exists (chars "type a = int type r = record{x: a #skip}"). eexists _, _. split; [vm_compute; reflexivity|]. split; [vm_compute; reflexivity|].
  intros P. apply Permutation_in with (x := TRecord (nm "r") [(chars "x", TBasic (nm "a") BInteger)]) in P; [|vm_compute; auto]. destruct P as [P|[P|[] ] ]; discriminate P.
Qed.
(** One type that cannot be read makes the whole schema vanish: here a field name that was given in
    quotes. *)
Theorem C57_quoted_refuted : exists x s, to_schema 200 (fun m => m) x = Ok s [] /\ length s = 2%nat /\ transmit 200 (fun m => m) s [] = Some [].
Proof.
  exists (chars "type a = int type r = record{" ++ [c_quote] ++ chars "x y" ++ [c_quote] ++ chars ": a}"). eexists. split; [vm_compute; reflexivity|]. split; [reflexivity|vm_compute; reflexivity].
Qed.
(** A definition that cannot be read ends the schema without notice: here one of a type whose name is
    no identifier. *)
Theorem C57_name_refuted : exists s s', transmit 200 (fun m => m) s [] = Some s' /\ length s = 2%nat /\ length s' = 1%nat.
Proof. exists [TBasic (nm "a") BInteger; TBasic (nm "r-1") BCount]. eexists. split; [vm_compute; reflexivity|]. split; reflexivity. Qed.
(** A type that stands outside of the schema makes the schema vanish. *)
Theorem C57_outside_refuted : exists s, transmit 200 (fun m => m) s [] = Some [] /\ s <> [].
Proof. exists [TList (nm "l") t_port]. split; [vm_compute; reflexivity|discriminate]. Qed.
(** The text of the empty schema is refused, and a receiver keeps the schema it had. *)
Theorem C57_empty_refuted : (forall n order, to_schema n order (show_schema []) = No) /\ (forall n order s0, transmit n order [] s0 = Some s0).
Proof. split; reflexivity. Qed.

(** * C58: definitions of types mean what they say *)

(** If every definition has a meaning, then all of them are resolved to their meanings, whatever
    order the table has. *)
Theorem C58_complete : forall local global, table local -> table global -> Forall definition local -> (forall k, In k (map fst local) -> exists u, denotes local (known global) k u) ->
  exists st, resolve global local = Done st /\ (forall k u, In (k, u) (r_resolved st) <-> In k (map fst local) /\ denotes local (known global) k u) /\
    Permutation (map ty_name (r_schema st)) (map fst local) /\ Permutation (r_schema st) (map snd (r_resolved st)).
Proof.
  intros local global Hl Hg Hd A. destruct (resolve_complete local global Hl Hg Hd A) as (st & R & G & L). destruct (done_all local global Hl Hg st G L) as (D1 & D2 & D3 & D4).
  exists st. split; [exact R|]. split; [exact D1|]. split; [rewrite D3, <- Permutation_rev; exact D2|rewrite D4; symmetry; apply Permutation_rev].
Qed.
(** If no definition replaces a known type and the definitions are resolved, then every one of them
    has a meaning, and that is what it is resolved to. *)
Theorem C58_sound : forall local global st, table local -> table global -> Forall definition local -> (forall k, In k (map fst local) -> ~ In k (map fst global)) -> resolve global local = Done st ->
  (forall k, In k (map fst local) -> exists u, denotes local (known global) k u) /\ (forall k u, In (k, u) (r_resolved st) <-> In k (map fst local) /\ denotes local (known global) k u).
Proof.
  intros local global st Hl Hg Hd AP R. destruct (loop_sound local global Hd AP (length local) _ st (start_good local global Hl) R) as [G L].
  destruct (done_all local global Hl Hg st G L) as (D1 & D2 & _). split; [|exact D1]. intros k Hk. assert (K : In k (map fst (r_resolved st))) by (apply Permutation_in with (map fst local); [now symmetry|exact Hk]).
  destruct (key_in _ _ K) as [u Hu]. exists u. now apply D1.
Qed.
(** A name has at most one meaning. *)
Theorem C58_unique : forall local global k u u', table local -> table global -> denotes local (known global) k u -> denotes local (known global) k u' -> u = u'.
Proof. intros local global k u u' Hl Hg H H'. exact (proj1 (meaning_unique local global Hl Hg) k u H u' H'). Qed.
(** Without replaced types, the order of the table makes no difference. *)
Theorem C58_order : forall local local' global st, table local -> table global -> Forall definition local -> (forall k, In k (map fst local) -> ~ In k (map fst global)) -> Permutation local local' ->
  resolve global local = Done st -> exists st', resolve global local' = Done st' /\ Permutation (r_schema st') (r_schema st).
Proof.
  intros local local' global st Hl Hg Hd AP P R. destruct (C58_sound local global st Hl Hg Hd AP R) as [A E].
  assert (PK : Permutation (map fst local) (map fst local')) by (now apply Permutation_map).
  assert (Hl' : table local') by (unfold table; eapply Permutation_NoDup; eassumption).
  assert (IN : forall x, In x local <-> In x local') by (intros x; split; apply Permutation_in; [exact P|now symmetry]).
  assert (M : forall k u, denotes local (known global) k u <-> denotes local' (known global) k u) by (intros k u; split; apply meaning_perm; intros x; [apply IN|symmetry; apply IN]).
  assert (Hd' : Forall definition local') by (apply Forall_forall; intros x Hx; apply (proj1 (Forall_forall _ _) Hd); now apply IN).
  destruct (C58_complete local' global Hl' Hg Hd') as (st' & R' & E' & N' & S').
  { intros k Hk. destruct (A k) as [u Hu]; [apply Permutation_in with (map fst local'); [now symmetry|exact Hk]|]. exists u. now apply M. }
  exists st'. split; [exact R'|]. rewrite S'.
  destruct (loop_sound local global Hd AP (length local) _ st (start_good local global Hl) R) as [G L]. destruct (done_all local global Hl Hg st G L) as (_ & _ & _ & D4). rewrite D4, <- Permutation_rev.
  apply Permutation_map. apply NoDup_Permutation.
  - apply (NoDup_map_inv fst). destruct (resolve_complete local' global Hl' Hg Hd') as (st2 & R2 & G2 & _).
    { intros k Hk. destruct (A k) as [u Hu]; [apply Permutation_in with (map fst local'); [now symmetry|exact Hk]|]. exists u. now apply M. }
    rewrite R' in R2. injection R2 as <-. apply (g_rtable _ _ _ _ G2).
  - apply (NoDup_map_inv fst). apply (g_rtable _ _ _ _ G).
  - intros [k u]. rewrite E, E'. rewrite M. split; intros [H1 H2]; (split; [|exact H2]); eapply Permutation_in; try exact H1; [now symmetry|exact PK].
Qed.
(** Definitions without type expressions never make the resolver crash, even if they are cyclic or
    refer to names that do not exist. *)
Theorem C58_no_crash : forall local global, Forall (fun x => simple (snd x)) local -> resolve global local <> Abort.
Proof. intros local global H. apply loop_never. now split. Qed.
(** So a definition without a meaning is reported. *)
Theorem C58_reported : forall local global k, table local -> table global -> Forall definition local -> Forall (fun x => simple (snd x)) local -> (forall k, In k (map fst local) -> ~ In k (map fst global)) ->
  In k (map fst local) -> (forall u, ~ denotes local (known global) k u) -> resolve global local = Fail.
Proof.
  intros local global k Hl Hg Hd Hs AP Hk N. destruct (resolve global local) as [st| |] eqn:R; [|reflexivity|now apply C58_no_crash in R].
  destruct (C58_sound local global st Hl Hg Hd AP R) as [A _]. destruct (A k Hk) as [u Hu]. now apply N in Hu.
Qed.
(** Directories: a later directory replaces what earlier ones define, and it may refer to what they
    define. *)
Theorem C58_directories : forall dirs, Forall (fun d => table d /\ Forall definition d) dirs ->
  (forall l1 d l2, dirs = l1 ++ d :: l2 -> forall k, In k (map fst d) -> exists u, meaning (d :: rev l1) k u) ->
  exists out, load_schema dirs = Done out /\ forall k u, schema_find k out = Some u <-> meaning (rev dirs) k u.
Proof.
  intros dirs H A. destruct (dirs_load dirs [] [] [] H) as (out & L & R).
  - constructor.
  - intros k u. split; intros [].
  - intros k u. split; [discriminate|intros []].
  - intros l1 d l2 E k Hk. rewrite app_nil_r. exact (A l1 d l2 E k Hk).
  - exists out. split; [exact L|]. intros k u. rewrite R. now rewrite app_nil_r.
Qed.

Definition ref (x : string) : ty := TNone (nm x).
Definition d_local : symbols := [(chars "pair", TRecord (nm "pair") [(chars "l", ref "id"); (chars "r", TNone {| m_name := chars "id"; m_attrs := skip |})]); (chars "id", TAlias (nm "id") (ref "port")); (chars "port", TAlias (nm "port") (ref "port"))].
Definition d_global : symbols := [(chars "port", TBasic (nm "port") BCount)].
Definition v_port : ty := TAlias (nm "port") (TBasic (nm "port") BCount).
Definition v_id : ty := TAlias (nm "id") v_port.
Lemma port_means : denotes d_local (known d_global) (chars "port") v_port.
Proof. eapply denotes_local; [right; right; left; reflexivity|]. apply expands_alias. apply (expands_self _ _ _ (nm "port") (TBasic (nm "port") BCount)); [discriminate|reflexivity|now left]. Qed.
Lemma id_means : denotes d_local (known d_global) (chars "id") v_id.
Proof. eapply denotes_local; [right; left; reflexivity|]. apply expands_alias. apply (expands_ref _ _ _ (nm "port") v_port); [discriminate|discriminate|exact port_means]. Qed.
Lemma pair_means : denotes d_local (known d_global) (chars "pair") (TRecord (nm "pair") [(chars "l", v_id); (chars "r", with_attrs v_id skip)]).
Proof.
  eapply denotes_local; [left; reflexivity|]. eapply expands_record; [|reflexivity]. constructor; [|constructor; [|constructor] ].
  - apply (expands_ref _ _ _ (nm "id") v_id); [discriminate|discriminate|exact id_means].
  - apply (expands_ref _ _ _ {| m_name := chars "id"; m_attrs := skip |} v_id); [discriminate|discriminate|exact id_means].
Qed.
Example C58_example : table d_local /\ table d_global /\ Forall definition d_local /\ Forall (fun x => simple (snd x)) d_local /\ (forall k, In k (map fst d_local) -> exists u, denotes d_local (known d_global) k u) /\
  load_schema [ [(chars "port", TBasic (nm "port") BCount)]; d_local] = Done [v_port; v_id; TRecord (nm "pair") [(chars "l", v_id); (chars "r", with_attrs v_id skip)] ].
Proof.
  split; [repeat constructor; cbn; intuition discriminate|]. split; [repeat constructor; cbn; tauto|]. split; [repeat constructor; discriminate|]. split; [repeat constructor; discriminate|]. split; [|vm_compute; reflexivity].
  intros k [<-|[<-|[<-|[] ] ] ]; eexists; [exact pair_means|exact id_means|exact port_means].
Qed.

(** With a cycle through a replaced type, the order of the hash table decides whether there is a
    schema. *)
Theorem C58_order_refuted : exists local local' global st, Permutation local local' /\ table local /\ table global /\ Forall definition local /\ resolve global local = Done st /\ resolve global local' = Fail.
Proof.
  exists [(chars "a", TList (nm "a") (ref "b")); (chars "b", TList (nm "b") (ref "a"))], [(chars "b", TList (nm "b") (ref "a")); (chars "a", TList (nm "a") (ref "b"))], [(chars "a", TBasic (nm "a") BBool)].
  eexists. split; [apply perm_swap|]. split; [repeat constructor; cbn; intuition discriminate|]. split; [repeat constructor; cbn; tauto|]. split; [repeat constructor; discriminate|]. split; vm_compute; reflexivity.
Qed.
(** A type expression over an alias of a record fails an assertion, as does one over a type that is
    no record. *)
Theorem C58_alias_expression_refuted : exists x y, schema_p 200 (fun m => m) x = Bad /\ schema_p 200 (fun m => m) y = Bad /\
  x = chars "type r = record{x: int} type s = r type t = s + record{y: int}" /\ y = chars "type r = int type t = r + record{y: int}".
Proof. eexists _, _. split; [|split; [|split; reflexivity] ]; vm_compute; reflexivity. Qed.
(** Attributes of a type expression are lost. *)
Theorem C58_expression_attribute_refuted : exists x y s, x <> y /\ to_schema 200 (fun m => m) x = Ok s [] /\ to_schema 200 (fun m => m) y = Ok s [] /\
  x = chars "type r = record{x: int} type t = r + record{y: int} #skip" /\ y = chars "type r = record{x: int} type t = r + record{y: int}".
Proof. eexists _, _, _. split; [|split; [|split; [|split; reflexivity] ] ]; [discriminate|vm_compute; reflexivity|vm_compute; reflexivity]. Qed.

(** Two schemas are merged exactly if they do not define the same name differently, and then the
    result has exactly the definitions of both, each once. *)
Theorem C58_merge : forall s1 s2, NoDup (map ty_name s1) -> NoDup (map ty_name s2) ->
  match schema_merge s1 s2 with
  | Some s => (forall t u, In t s1 -> In u s2 -> ty_name t = ty_name u -> t = u) /\ NoDup (map ty_name s) /\ forall t, In t s <-> In t s1 \/ In t s2
  | None => exists t u, In t s1 /\ In u s2 /\ ty_name t = ty_name u /\ t <> u
  end.
Proof.
  intros s1 s2 N1 N2. assert (Found : forall k s, match schema_find k s with Some u => In u s /\ ty_name u = k | None => ~ In k (map ty_name s) end).
  { intros k s. induction s as [|u s IH]; cbn [schema_find]; [auto|]. destruct (bytes_eqb (ty_name u) k) eqn:E.
    - apply bytes_eqb_iff in E. split; [now left|exact E].
    - destruct (schema_find k s) as [v|]; [destruct IH; split; [now right|assumption]|]. cbn [map In]. intros [H|H]; [|now apply IH]. apply bytes_eqb_iff in H. congruence. }
  assert (Once : forall (s : list ty) t u, NoDup (map ty_name s) -> In t s -> In u s -> ty_name t = ty_name u -> t = u).
  { clear. induction s as [|x s IH]; intros t u N Ht Hu E; [destruct Ht|]. cbn [map] in N. inversion N as [|? ? N1 N2]; subst. destruct Ht as [->|Ht], Hu as [->|Hu]; auto; exfalso; apply N1; apply in_map_iff; eauto. }
  unfold schema_merge.
  assert (G : forall l, (forall t, In t l -> ~ In (ty_name t) (map ty_name s1)) -> NoDup (map ty_name (s2 ++ l)) ->
    match merge_loop s2 s1 (s2 ++ l) with
    | Some s => (forall t u, In t s1 -> In u s2 -> ty_name t = ty_name u -> t = u) /\ NoDup (map ty_name s) /\ forall t, In t s <-> In t s1 \/ In t (s2 ++ l)
    | None => exists t u, In t s1 /\ In u s2 /\ ty_name t = ty_name u /\ t <> u
    end).
  { induction s1 as [|t s1 IH]; intros l L NL; cbn [merge_loop].
    - split; [intros t u []|]. split; [exact NL|]. intros t. cbn [In]. tauto.
    - cbn [map] in N1. inversion N1 as [|? ? M1 M2]; subst. specialize (IH M2). pose proof (Found (ty_name t) s2) as F. destruct (schema_find (ty_name t) s2) as [u|].
      + destruct F as [Fu En]. assert (Eb : bytes_eqb (ty_name t) (ty_name u) = true) by (apply bytes_eqb_iff; now symmetry). rewrite Eb, andb_true_r. destruct (ty_eqb t u) eqn:Q; cbn [negb].
        * apply ty_eqb_eq in Q. subst u. specialize (IH l (fun x Hx Y => L x Hx (or_intror Y)) NL). destruct (merge_loop s2 s1 (s2 ++ l)) as [s|].
          -- destruct IH as (I1 & I2 & I3). split; [|split; [exact I2|] ].
             ++ intros x y [->|Hx] Hy E; [eapply Once; [exact N2| | |exact E]; assumption|now apply I1].
             ++ intros x. rewrite I3. cbn [In]. rewrite !in_app_iff. split; [tauto|]. intros [[<-|H]|H]; auto.
          -- destruct IH as (x & y & I1 & I2 & I3). exists x, y. split; [now right|auto].
        * exists t, u. split; [now left|]. split; [exact Fu|]. split; [now symmetry|]. intros ->. rewrite (proj2 (ty_eqb_eq u u) eq_refl) in Q. discriminate.
      + specialize (IH (l ++ [t])). rewrite app_assoc in IH. assert (L' : forall x, In x (l ++ [t]) -> ~ In (ty_name x) (map ty_name s1)).
        { intros x Hx. apply in_app_iff in Hx. destruct Hx as [Hx|[<-|[]]]; [intros Y; apply (L x Hx); now right|exact M1]. }
        assert (NL' : NoDup (map ty_name ((s2 ++ l) ++ [t]))).
        { rewrite map_app. cbn [map]. apply (Permutation_NoDup (l := ty_name t :: map ty_name (s2 ++ l))); [apply Permutation_cons_append|]. constructor; [|exact NL].
          rewrite map_app, in_app_iff. intros [H|H]; [contradiction|]. apply in_map_iff in H. destruct H as (x & Ex & Hx). apply (L x Hx). left. now symmetry. }
        specialize (IH L' NL'). destruct (merge_loop s2 s1 ((s2 ++ l) ++ [t])) as [s|].
        * destruct IH as (I1 & I2 & I3). split; [|split; [exact I2|] ].
          -- intros x y [->|Hx] Hy E; [exfalso; apply F; rewrite E; now apply in_map|now apply I1].
          -- intros x. rewrite I3, !in_app_iff. cbn [In]. tauto.
        * destruct IH as (x & y & I1 & I2 & I3). exists x, y. split; [now right|auto]. }
  specialize (G [] (fun t H => match H with end)). rewrite app_nil_r in G. specialize (G N2).
  destruct (merge_loop s2 s1 s2); exact G.
Qed.
Example C58_merge_example : schema_merge [TBasic (nm "a") BBool; TBasic (nm "b") BCount] [TBasic (nm "a") BBool] = Some [TBasic (nm "a") BBool; TBasic (nm "b") BCount] /\
  schema_merge [TBasic (nm "a") BBool] [TBasic (nm "a") BCount] = None.
Proof. split; vm_compute; reflexivity. Qed.

Definition assumptions_schema := (C58_merge, C57_type, C57_reference, C57_schema, C57_transmit, C57_example, C57_field_attribute_refuted, C57_twice_refuted, C57_quoted_refuted, C57_name_refuted, C57_outside_refuted, C57_empty_refuted,
  C58_complete, C58_sound, C58_unique, C58_order, C58_no_crash, C58_reported, C58_directories, C58_example, C58_order_refuted, C58_alias_expression_refuted, C58_expression_attribute_refuted).
Print Assumptions assumptions_schema.
