(** C59: type expressions combine records field by field. *)
From Coq Require Import String Ascii List NArith Bool Arith Lia.
From Coq Require Import Init.Datatypes.
From Verif Require Import EscapeModel LiteralModel SyntaxModel SchemaModel AddressModel AddressProofs TypeModel TypeProofs AlgebraProofs.
Import ListNotations.

(** The definition [type s = base + r1 + ... + rn] denotes a record that has the columns of all
    operands and no others. *)
Theorem C59_sum : forall m k base ops t, has_attribute m algebra_key = true -> distinct base -> Forall (fun o => fst o = chars "+" /\ distinct (snd o)) ops ->
  finish_record m ((k, base) :: ops) = Done t ->
  ty_name t = m_name m /\ forall p x, leaf t p x <-> leaf base p x \/ exists o, In o ops /\ leaf (snd o) p x.
Proof.
  intros m k base ops t A D F H. destruct (finish_done _ _ _ _ _ A H) as (acc & E & _ & N & L & _). destruct (sum_leaves _ _ _ D F E) as (_ & S). split; [exact N|]. intros p x. now rewrite L, S.
Qed.
(** The sum of two records is refused exactly if some field is in both of them with different
    contents, or if neither has any fields. *)
Theorem C59_sum_refused : forall m k base rhs, has_attribute m algebra_key = true -> is_record base = true -> is_record rhs = true -> distinct base -> distinct rhs ->
  (finish_record m [(k, base); (chars "+", rhs)] = Fail <-> conflict base rhs \/ (no_fields base /\ no_fields rhs)).
Proof.
  intros m k base rhs A RB RR DB DR. destruct (merge_into rhs base) as [next|] eqn:M.
  - destruct (merge_shape _ _ _ M) as (n & gs & mb & fs & out & E1 & E2 & E3 & ML). rewrite (finish_next m k base _ rhs next A RB); [|cbn [algebra]; subst rhs; rewrite eqb_same; unfold merge; rewrite M; reflexivity|subst; reflexivity].
    pose proof (merge_fields _ _ _ _ _ (proj1 (proj1 (distinct_fields n gs) ltac:(subst; exact DR))) (proj1 (proj1 (distinct_fields mb fs) ltac:(subst; exact DB))) ML) as Z. subst rhs base next. cbn [no_fields]. split.
    + intros X. destruct out; [|contradiction]. destruct (proj1 Z eq_refl) as [-> ->]. right. now split.
    + intros [(p & x & y & X & Y & NE & R)|[X Y] ].
      * rewrite (merge_conflict p _ _ x y DR X Y NE R) in M. discriminate.
      * destruct fs; [|contradiction]. destruct gs; [|contradiction]. rewrite (proj2 Z); [exact Logic.I|now split].
  - split; [|intros _; apply finish_fails; [exact A|exact RB|] ].
    + intros _. left. now apply merge_fails.
    + cbn [algebra]. destruct rhs; try discriminate. rewrite eqb_same. unfold merge. now rewrite M.
Qed.
(** [base <+ rhs] and [base +> rhs] keep the columns of one operand and add those of the other that it
    leaves room for. *)
Definition operator_of (p : policy) : text := match p with prefer_left => chars "<+" | prefer_right => chars "+>" end.
Lemma algebra_priority : forall pol base rhs, is_record rhs = true -> algebra base [(operator_of pol, rhs)] = match priority_merge_into pol rhs base with Some acc => Done acc | None => Fail end.
Proof. intros pol base rhs R. destruct rhs; try discriminate. destruct pol; reflexivity. Qed.
Theorem C59_prefer : forall pol m k base rhs t, has_attribute m algebra_key = true -> distinct base -> distinct rhs ->
  finish_record m [(k, base); (operator_of pol, rhs)] = Done t ->
  ty_name t = m_name m /\ forall p x, leaf t p x <-> leaf (winner pol base rhs) p x \/ (leaf (loser pol base rhs) p x /\ open_at (winner pol base rhs) p).
Proof.
  intros pol m k base rhs t A DB DR H. destruct (finish_done _ _ _ _ _ A H) as (acc & E & _ & N & L & _). split; [exact N|]. intros p x. rewrite L.
  assert (RR : is_record rhs = true) by (cbn [algebra] in E; destruct rhs; try discriminate E; reflexivity). rewrite algebra_priority in E by exact RR.
  destruct (priority_merge_into pol rhs base) as [r|] eqn:M; [|discriminate]. injection E as <-. now destruct (priority_leaves _ _ _ _ DR DB M) as (_ & _ & Q).
Qed.
Theorem C59_prefer_refused : forall pol m k base rhs, has_attribute m algebra_key = true -> is_record base = true -> is_record rhs = true -> distinct base -> distinct rhs ->
  (finish_record m [(k, base); (operator_of pol, rhs)] = Fail <-> no_fields base /\ no_fields rhs).
Proof.
  intros pol m k base rhs A RB RR DB DR. destruct (priority_total pol rhs base RR RB DR DB) as (r & M). destruct (priority_leaves _ _ _ _ DR DB M) as (_ & Rr & _).
  rewrite (finish_next m k base _ rhs r A RB); [|now rewrite algebra_priority, M|exact Rr]. destruct rhs as [| | | | | |n gs|]; try discriminate. destruct base as [| | | | | |mb fs|]; try discriminate. cbn [priority_merge_into] in M.
  match type of M with context [merge_loop ?a ?b gs fs []] => destruct (merge_loop a b gs fs []) as [out|] eqn:ML; [|discriminate] end. injection M as <-.
  pose proof (merge_fields _ _ _ _ _ (proj1 (proj1 (distinct_fields _ _) DR)) (proj1 (proj1 (distinct_fields _ _) DB)) ML) as Z. cbn [no_fields]. split.
  - intros X. destruct out; [|contradiction]. destruct (proj1 Z eq_refl) as [-> ->]. now split.
  - intros [X Y]. destruct fs; [|contradiction]. destruct gs; [|contradiction]. rewrite (proj2 Z); [exact Logic.I|now split].
Qed.
(** [base - a.b.c] removes what stands at or below that path and nothing else, if no record on the way
    has a field of the name that comes next in the path. *)
Theorem C59_remove : forall m k base mp path t, has_attribute m algebra_key = true -> distinct base -> clear base (map fst path) ->
  finish_record m [(k, base); (chars "-", TRecord mp path)] = Done t ->
  ty_name t = m_name m /\ forall p x, leaf t p x <-> leaf base p x /\ ~ begins (map fst path) p.
Proof.
  intros m k base mp path t A D C H. destruct (finish_done _ _ _ _ _ A H) as (acc & E & _ & N & L & _). split; [exact N|]. intros p x. rewrite L.
  destruct (remove_leaves _ _ D C) as (mr & fr & R & _ & Q). change (match remove_path base (map fst path) with Some acc' => Done acc' | None => Fail end = Done acc) in E. rewrite R in E. injection E as <-. apply Q.
Qed.
Theorem C59_remove_accepted : forall m k base mp path, has_attribute m algebra_key = true -> distinct base -> clear base (map fst path) ->
  (exists p x, leaf base p x /\ ~ begins (map fst path) p) -> finish_record m [(k, base); (chars "-", TRecord mp path)] <> Fail.
Proof.
  intros m k base mp path A D C (p & x & X & Y) H. destruct (remove_leaves _ _ D C) as (mr & fr & R & _ & Q). assert (RB : is_record base = true) by (destruct path; destruct base; try contradiction; reflexivity).
  rewrite (finish_next m k base _ _ (TRecord mr fr) A RB) in H; [|change (match remove_path base (map fst path) with Some acc' => Done acc' | None => Fail end = Done (TRecord mr fr)); now rewrite R|reflexivity].
  destruct fr; [|contradiction]. assert (B : leaf (TRecord mr []) p x) by (apply Q; now split). destruct p as [|c p]; [now apply leaf_nil in B|]. apply leaf_cons in B. destruct B as (u & U & _). discriminate.
Qed.

(** ** A concrete case *)

Definition nm' (x : string) : meta := {| m_name := chars x; m_attrs := [] |}.
Definition alg (x : string) : meta := {| m_name := chars x; m_attrs := [(algebra_key, None)] |}.
Definition int_t : ty := TBasic no_meta BInteger.
Definition str_t : ty := TBasic no_meta BString.
Definition conn : ty := TRecord (nm' "conn") [(chars "id", TRecord no_meta [(chars "src", int_t); (chars "dst", int_t)]); (chars "note", str_t)].
Definition extra : ty := TRecord (nm' "extra") [(chars "id", TRecord no_meta [(chars "vlan", int_t); (chars "src", int_t)]); (chars "tag", str_t)].
Definition other : ty := TRecord (nm' "other") [(chars "id", str_t); (chars "note", TRecord no_meta [(chars "lang", str_t)]); (chars "tag", str_t)].
Ltac nodup := repeat (constructor; [let H := fresh in intros H; vm_compute in H; repeat (destruct H as [H|H]; [discriminate H|]); destruct H|]); constructor.
Lemma conn_distinct : distinct conn.
Proof. apply distinct_fields. split; [nodup|]. constructor; [|constructor; [exact Logic.I|constructor] ]. apply distinct_fields. split; [nodup|]. repeat (constructor; [exact Logic.I|]). constructor. Qed.
Lemma extra_distinct : distinct extra.
Proof. apply distinct_fields. split; [nodup|]. constructor; [|constructor; [exact Logic.I|constructor] ]. apply distinct_fields. split; [nodup|]. repeat (constructor; [exact Logic.I|]). constructor. Qed.
Lemma other_distinct : distinct other.
Proof. apply distinct_fields. split; [nodup|]. constructor; [exact Logic.I|]. constructor; [|constructor; [exact Logic.I|constructor] ]. apply distinct_fields. split; [nodup|]. repeat (constructor; [exact Logic.I|]). constructor. Qed.

Example C59_example : distinct conn /\ distinct extra /\ distinct other /\ conflict conn other /\ open_at conn [chars "id"; chars "vlan"] /\ ~ open_at conn [chars "note"; chars "lang"] /\
  clear conn [chars "id"; chars "src"] /\
  finish_record (alg "s") [(chars "", conn); (chars "+", extra)] = Done (TRecord (nm' "s") [(chars "id", TRecord no_meta [(chars "src", int_t); (chars "dst", int_t); (chars "vlan", int_t)]); (chars "note", str_t); (chars "tag", str_t)]) /\
  finish_record (alg "s") [(chars "", conn); (chars "+", other)] = Fail /\
  finish_record (alg "s") [(chars "", conn); (chars "<+", other)] = Done (TRecord {| m_name := chars "s"; m_attrs := [] |} [(chars "id", TRecord no_meta [(chars "src", int_t); (chars "dst", int_t)]); (chars "note", str_t); (chars "tag", str_t)]) /\
  finish_record (alg "s") [(chars "", conn); (chars "-", TRecord no_meta [(chars "id", TNull); (chars "src", TNull)])] = Done (TRecord (nm' "s") [(chars "id", TRecord no_meta [(chars "dst", int_t)]); (chars "note", str_t)]).
Proof.
  split; [exact conn_distinct|]. split; [exact extra_distinct|]. split; [exact other_distinct|]. split.
  { exists [chars "id"], (TRecord no_meta [(chars "src", int_t); (chars "dst", int_t)]), str_t. split; [reflexivity|]. split; [reflexivity|]. split; [discriminate|reflexivity]. }
  split; [apply open_cons; right; eexists; split; [reflexivity|]; apply open_cons; left; reflexivity|]. split.
  { intros H. apply open_cons in H. destruct H as [H|(u & U & H)]; [discriminate|]. injection U as <-. now apply open_leaf in H. }
  split; [cbn; split; [intros [H|[H|[] ] ]; discriminate|split; [reflexivity|exact Logic.I] ]|]. repeat split; vm_compute; reflexivity.
Qed.

(** ** Where the operators do not mean what they say *)

(** To remove a field that does not exist is meant to be an error, and is accepted. *)
Theorem C59_remove_missing_refuted : exists m base mp path t, has_attribute m algebra_key = true /\ distinct base /\ at_path base (map fst path) = None /\
  finish_record m [([], base); (chars "-", TRecord mp path)] = Done t /\ forall p x, leaf t p x <-> leaf base p x.
Proof.
  exists (alg "s"), conn, no_meta, [(chars "missing", TNull)]. eexists. split; [reflexivity|]. split; [exact conn_distinct|]. split; [reflexivity|]. split; [vm_compute; reflexivity|].
  intros p x. change (leaf (with_name conn (chars "s")) p x <-> leaf conn p x). apply with_name_leaf.
Qed.
(** A field that lies elsewhere is removed as well. *)
Theorem C59_remove_other_refuted : exists s m fs, to_schema 200 (fun l => l) (chars "type c = record{id: record{note: int, port: int}, note: string, tag: string} type s = c - id.note") = Ok s [] /\
  In (TRecord m fs) s /\ m_name m = chars "s" /\ find_field (chars "note") fs = None.
Proof. eexists _, _, _. split; [vm_compute; reflexivity|]. split; [right; left; reflexivity|]. split; [reflexivity|]. vm_compute. reflexivity. Qed.

Definition assumptions_algebra := (C59_sum, C59_sum_refused, C59_prefer, C59_prefer_refused, C59_remove, C59_remove_accepted, C59_example, C59_remove_missing_refuted, C59_remove_other_refuted).
Print Assumptions assumptions_algebra.
