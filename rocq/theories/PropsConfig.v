(** C63: how configuration files determine the value of an option. *)
From Coq Require Import List NArith ZArith Bool Lia.
From Verif Require Import DataModel ConfigModel ConfigProofs.
Import ListNotations.
Open Scope N_scope.

(** Specification.
    - A path [p] is a list of names; [get p x] follows it through records.
    - [reach p (DRecord f)] tells how a file speaks about a path: [At v] if it gives the value [v],
      [Blocked] if a shorter path has a value that is no record, [Missing] if there is nothing.
    - [join p] is the name of the option, with dots between the names.
    - [good files]: names are distinct within a record and have no dots, and all files together have
      fewer than 100 nested records.
    - An option is [plain] if it is not below "caf" and no file has it below "caf" as well. *)
Definition plain (files : list fields) (p : list name) : Prop :=
  dotless p /\ hd [] p <> caf /\ Forall (missing (caf :: p)) files.

Lemma plain_find files p : good files -> plain files p -> find (join p) (config files) = visible (get p (DRecord (merged files))).
Proof.
  intros G (D & H & F). apply config_find; auto. now rewrite merged_missing by (auto; discriminate).
Qed.

(** The last file that gives an option a value wins. *)
Theorem C63_last files before f after p v :
  files = before ++ f :: after -> good files -> plain files p ->
  reach p (DRecord f) = At v -> is_record v = false -> v <> DNone -> (forall ys, v <> DList ys) ->
  Forall (missing p) after ->
  find (join p) (config files) = Some v.
Proof.
  intros -> G P R IR NN NL A. rewrite plain_find by assumption.
  change (f :: after) with ([f] ++ after) in *. rewrite app_assoc in *. rewrite merged_after by assumption.
  assert (G' : good (before ++ [f])).
  { clear -G. destruct G as [G1 G2]. rewrite total_app in G2. apply Forall_app in G1 as [G1 _]. split; [exact G1 | lia]. }
  pose proof (merged_get before f p G') as H. rewrite R, IR in H. rewrite H.
  apply visible_some. assert (E : over true v (get p (DRecord (merged before))) = v).
  { destruct v; try reflexivity. exfalso. now apply (NL xs). }
  rewrite E. auto.
Qed.

(** A null value removes an option. *)
Theorem C63_null files before f after p :
  files = before ++ f :: after -> good files -> plain files p ->
  reach p (DRecord f) = At DNone -> Forall (missing p) after ->
  find (join p) (config files) = None.
Proof.
  intros -> G P R A. rewrite plain_find by assumption.
  change (f :: after) with ([f] ++ after) in *. rewrite app_assoc in *. rewrite merged_after by assumption.
  assert (G' : good (before ++ [f])).
  { clear -G. destruct G as [G1 G2]. rewrite total_app in G2. apply Forall_app in G1 as [G1 _]. split; [exact G1 | lia]. }
  pose proof (merged_get before f p G') as H. rewrite R in H. cbn [is_record over] in H. now rewrite H.
Qed.

(** So does a value that is no record for a shorter path. *)
Theorem C63_blocked files before f after p :
  files = before ++ f :: after -> good files -> plain files p ->
  reach p (DRecord f) = Blocked -> Forall (missing p) after ->
  find (join p) (config files) = None.
Proof.
  intros -> G P R A. rewrite plain_find by assumption.
  change (f :: after) with ([f] ++ after) in *. rewrite app_assoc in *. rewrite merged_after by assumption.
  assert (G' : good (before ++ [f])).
  { clear -G. destruct G as [G1 G2]. rewrite total_app in G2. apply Forall_app in G1 as [G1 _]. split; [exact G1 | lia]. }
  pose proof (merged_get before f p G') as H. rewrite R in H. now rewrite H.
Qed.

(** Lists of several files are appended in the order of the files. *)
Theorem C63_lists files p :
  good files -> plain files p ->
  Forall (fun f => missing p f \/ exists ys, reach p (DRecord f) = At (DList ys)) files ->
  (Exists (fun f => exists ys, reach p (DRecord f) = At (DList ys)) files) ->
  find (join p) (config files)
  = Some (DList (flat_map (fun f => match reach p (DRecord f) with At (DList ys) => ys | _ => [] end) files)).
Proof.
  intros G P F E. rewrite plain_find by assumption. rewrite merged_lists; [|apply P|assumption|assumption].
  assert (X : concat (lists_at p files) = flat_map (fun f => match reach p (DRecord f) with At (DList ys) => ys | _ => [] end) files).
  { clear. induction files as [|f r IH]; [reflexivity|]. cbn [lists_at flat_map]. rewrite concat_app, IH. f_equal.
    destruct (reach p (DRecord f)) as [[]| |]; cbn; try reflexivity. apply app_nil_r. }
  rewrite X. destruct (lists_at p files) eqn:L; [|reflexivity]. exfalso. clear -E L.
  induction E as [f r (ys & H)|f r _ IH]; cbn [lists_at] in L; [rewrite H in L; discriminate|].
  destruct (match reach p (DRecord f) with At (DList ys) => [ys] | _ => [] end); [now apply IH | discriminate].
Qed.

(** A list is appended to a single value that an earlier file gave. *)
Theorem C63_list_after_value before f p v ys :
  good (before ++ [f]) -> plain (before ++ [f]) p ->
  find (join p) (config before) = Some v -> (forall xs, v <> DList xs) ->
  reach p (DRecord f) = At (DList ys) ->
  find (join p) (config (before ++ [f])) = Some (DList (v :: ys)).
Proof.
  intros G P V NL R. rewrite plain_find by assumption.
  assert (G' : good before) by now apply good_snoc in G.
  assert (P' : plain before p).
  { destruct P as (D & H & F). apply Forall_app in F as [F _]. repeat split; try assumption; apply D. }
  rewrite plain_find in V by assumption. apply visible_some in V as (V & IR & NN).
  pose proof (merged_get before f p G) as H. rewrite R in H. cbn [is_record] in H. rewrite H, V.
  unfold over. destruct v; try reflexivity; [contradiction | exfalso; now apply (NL xs)].
Qed.

(** An option that no file speaks of has no value, and every option that has one comes from a path
    in the files. *)
Theorem C63_absent files p : good files -> plain files p -> Forall (missing p) files -> find (join p) (config files) = None.
Proof. intros G P F. rewrite plain_find by assumption. rewrite merged_missing; [reflexivity | apply P | assumption | assumption]. Qed.

Theorem C63_only files k v : good files -> In (k, v) (config files) ->
  v <> DNone /\ is_record v = false /\
  exists p, dotless p /\ (k = join p \/ exists q, p = caf :: q /\ q <> [] /\ k = join q) /\ ~ Forall (missing p) files.
Proof.
  intros G H. apply config_In in H as (p & D & S & V); [|exact G]. pose proof V as V0. apply visible_some in V0 as (_ & IR & NN).
  split; [exact NN|]. split; [exact IR|]. exists p. split; [exact D|]. split.
  - rewrite strip_join in S by exact D. destruct p as [|a [|b p]]; [now left | now left |].
    destruct (name_eqb a caf) eqn:E; [|now left]. right. apply name_eqb_spec in E as ->. exists (b :: p). repeat split; [discriminate | now symmetry].
  - intros F. rewrite merged_missing in V; [discriminate | apply D | exact G | exact F].
Qed.

(** Options below "caf" are found without that prefix. *)
Theorem C63_caf files before f after p v :
  files = before ++ f :: after -> good files -> dotless p -> hd [] p <> caf -> Forall (missing p) files ->
  reach (caf :: p) (DRecord f) = At v -> is_record v = false -> v <> DNone -> (forall ys, v <> DList ys) ->
  Forall (missing (caf :: p)) after ->
  find (join p) (config files) = Some v.
Proof.
  intros -> G D H F R IR NN NL A.
  rewrite config_find_caf; [|exact G|exact D|exact H|rewrite merged_missing; [reflexivity | apply D | exact G | exact F]].
  change (f :: after) with ([f] ++ after) in *. rewrite app_assoc in *. rewrite merged_after by assumption.
  assert (G' : good (before ++ [f])).
  { clear -G. destruct G as [G1 G2]. rewrite total_app in G2. apply Forall_app in G1 as [G1 _]. split; [exact G1 | lia]. }
  pose proof (merged_get before f (caf :: p) G') as M. rewrite R, IR in M. rewrite M.
  apply visible_some. assert (E : over true v (get (caf :: p) (DRecord (merged before))) = v).
  { destruct v; try reflexivity. exfalso. now apply (NL xs). }
  rewrite E. auto.
Qed.

(** Flattening a record: one field for every value that is no record, named by its path. *)
Theorem C63_flatten fs p : clean (DRecord fs) -> sections (DRecord fs) < 100 -> dotless p ->
  find (join p) (flatten fs) = match get p (DRecord fs) with Some v => if is_record v then None else Some v | None => None end.
Proof.
  intros C S D. unfold flatten. rewrite flatten_leaves; [now apply flat_find | exact C | now apply sections_fit].
Qed.
Theorem C63_flat fs : clean (DRecord fs) -> sections (DRecord fs) < 100 ->
  NoDup (map fst (flatten fs)) /\
  forall k v, In (k, v) (flatten fs) -> is_record v = false /\ exists p, dotless p /\ k = join p /\ get p (DRecord fs) = Some v.
Proof.
  intros C S. unfold flatten. rewrite flatten_leaves; [|exact C|now apply sections_fit]. split; [now apply named_NoDup|].
  intros k v H. unfold named in H. apply in_map_iff in H as ([p u] & E & H). cbn in E. injection E as <- ->.
  pose proof (leaves_dotless _ C _ _ H). apply leaves_spec in H; [|exact C]. destruct H as (_ & G & R). eauto.
Qed.

(** Merging one record into another, path by path, without appending lists. *)
Theorem C63_merge src dst p : clean (DRecord src) -> sections (DRecord src) < 100 ->
  match reach p (DRecord src) with
  | At v => if is_record v then exists g, get p (DRecord (merge false src dst)) = Some (DRecord g)
            else get p (DRecord (merge false src dst)) = Some v
  | Blocked => get p (DRecord (merge false src dst)) = None
  | Missing => get p (DRecord (merge false src dst)) = get p (DRecord dst)
  end.
Proof.
  intros C S. rewrite merge_record.
  pose proof (merge_get false p (DRecord src) (Some (DRecord dst)) max_recursion C (sections_fit _ _ S)) as H.
  destruct (reach p (DRecord src)) as [v| |]; try exact H. destruct (is_record v); [exact H|].
  rewrite H. now destruct v.
Qed.

(** The limit on the depth of records is counted down for every record beside another one, so a
    file of depth two with 100 records loses the values in the last one. *)
Fixpoint many (n : nat) : fields := match n with O => [] | S n' => many n' ++ [([200 + N.of_nat n], DRecord [([120], DInt 1)])] end.
Theorem C63_limit_refuted : exists file p v,
  clean (DRecord file) /\ plain [file] p /\ reach p (DRecord file) = At v /\ v = DInt 1 /\ length p = 2%nat
  /\ find (join p) (config [file]) = None.
Proof.
  exists (many 100), [[300]; [120]], (DInt 1).
  assert (C : forall n, clean (DRecord (many n)) /\ Forall (fun k => exists i, k = [200 + N.of_nat i] /\ (1 <= i <= n)%nat) (map fst (many n))).
  { induction n as [|n [IC IF]]; [split; [split; [constructor | exact I] | constructor]|]. cbn [many]. rewrite map_app. cbn [map fst]. split.
    - rewrite clean_record in *. rewrite map_app. cbn [map fst]. split.
      + apply NoDup_app_intro; [apply IC | repeat constructor; easy |]. intros k K [<-|[]].
        rewrite Forall_forall in IF. destruct (IF _ K) as (i & E & L). assert (200 + N.of_nat (S n) = 200 + N.of_nat i) by congruence. lia.
      + apply clean_loop_Forall. apply Forall_app. split; [now apply clean_loop_Forall|]. constructor; [|constructor]. cbn [fst snd]. split.
        * intros [E|[]]. unfold dot in E. lia.
        * cbn. repeat split; [repeat constructor; easy|]. intros [E|[]]. discriminate.
    - apply Forall_app. split; [|constructor; [exists (S n); split; [reflexivity | lia] | constructor]].
      eapply Forall_impl; [|exact IF]. intros k (i & E & L). exists i. split; [exact E | lia]. }
  split; [apply C|]. split.
  - split; [|split].
    + split; [discriminate|]. repeat constructor; intros [E|[]]; discriminate.
    + discriminate.
    + constructor; [vm_compute; reflexivity | constructor].
  - split; [vm_compute; reflexivity|]. do 2 (split; [reflexivity|]). vm_compute. reflexivity.
Qed.

(** Names with dots escape the rule: the later file sets the option, and the earlier one wins. *)
Theorem C63_dotted_refuted : exists f1 f2 p,
  NoDup (map fst f1) /\ NoDup (map fst f2) /\ find (join p) f1 = Some (DInt 1) /\ reach p (DRecord f2) = At (DInt 2)
  /\ find (join p) (config [f1; f2]) = Some (DInt 1).
Proof.
  exists [([97; 46; 98], DInt 1)], [([97], DRecord [([98], DInt 2)])], [[97]; [98]].
  split; [repeat constructor; easy|]. split; [repeat constructor; easy|]. repeat split; vm_compute; reflexivity.
Qed.

(** Two files: "vast.endpoint" is set twice, the lists of plugins are joined, "vast.detach" is removed. *)
Definition k_vast : name := [118]. Definition k_endpoint : name := [101]. Definition k_plugins : name := [112]. Definition k_detach : name := [100].
Definition file1 : fields := [(k_vast, DRecord [(k_endpoint, DString [49]); (k_plugins, DList [DString [97]]); (k_detach, DBool true)])].
Definition file2 : fields := [(k_vast, DRecord [(k_detach, DNone); (k_endpoint, DString [50]); (k_plugins, DList [DString [98]; DString [99]])]);
                              (caf, DRecord [(k_vast, DRecord [(caf, DInt 3)])])].
Example C63_example :
  good [file1; file2] /\
  config [file1; file2] = [(join [k_vast; k_endpoint], DString [50]);
                           (join [k_vast; k_plugins], DList [DString [97]; DString [98]; DString [99]]);
                           (join [k_vast; caf], DInt 3)] /\
  plain [file1; file2] [k_vast; k_endpoint] /\ reach [k_vast; k_endpoint] (DRecord file2) = At (DString [50]) /\
  plain [file1; file2] [k_vast; k_detach] /\ reach [k_vast; k_detach] (DRecord file2) = At DNone /\
  reach [caf; k_vast; caf] (DRecord file2) = At (DInt 3) /\ Forall (missing [k_vast; caf]) [file1; file2].
Proof.
  assert (D : forall k, k = k_vast \/ k = k_endpoint \/ k = k_plugins \/ k = k_detach \/ k = caf -> ~ In dot k)
    by (intros k H E; decompose [or] H; subst k; cbn in E; decompose [or] E; try discriminate; contradiction).
  assert (P : forall k, k = k_endpoint \/ k = k_detach -> plain [file1; file2] [k_vast; k]).
  { intros k [-> | ->]; (split; [split; [discriminate | repeat constructor; apply D; tauto] | split; [discriminate | repeat constructor]]). }
  split.
  { split; [|reflexivity]. repeat constructor; cbn; try (intros H; decompose [or] H; try discriminate; contradiction). }
  split; [vm_compute; reflexivity|]. split; [apply P; tauto|]. split; [reflexivity|]. split; [apply P; tauto|].
  split; [reflexivity|]. split; [reflexivity | repeat constructor].
Qed.

Definition assumptions_C63 := (C63_last, C63_null, C63_blocked, C63_lists, C63_list_after_value, C63_absent, C63_only, C63_caf,
  C63_flatten, C63_flat, C63_merge, C63_limit_refuted, C63_dotted_refuted).
Print Assumptions assumptions_C63.
