(** C81: metrics reach the outputs that are switched on, each once and in order. *)
From Coq Require Import List ZArith NArith Bool Arith Lia ZifyBool ZifyNat ZifyN.
From Verif Require Import AddressModel AccountantModel.
Import ListNotations.
Open Scope nat_scope.
Local Notation length := List.length.

(** * Specification *)
(** The name an actor gave last, if it has not ended since. *)
Fixpoint called (a : N) (past : list input) (before : list N) : list N :=
  match past with
  | [] => before
  | Announce b n :: r => called a r (if N.eqb a b then n else before)
  | Down b :: r => called a r (if N.eqb a b then [] else before)
  | _ :: r => called a r before
  end.
(** All metrics of a history, with the names of their actors at the time. *)
Fixpoint metrics (past is : list input) : list metric :=
  match is with
  | [] => []
  | Metric a k v :: r => {| m_name := called a past []; m_key := k; m_value := v |} :: metrics (past ++ [Metric a k v]) r
  | i :: r => metrics (past ++ [i]) r
  end.
(** The metrics of a history while a sink is on: a switch says after each configuration whether it is. *)
Fixpoint metrics_while (switch : config -> (list N -> bool) -> config -> bool -> bool) (c : config) (now : bool) (past is : list input) : list metric :=
  match is with
  | [] => []
  | Metric a k v :: r => (if now then [ {| m_name := called a past []; m_key := k; m_value := v |} ] else []) ++ metrics_while switch c now (past ++ [Metric a k v]) r
  | Config c' opens :: r => metrics_while switch c' (switch c' opens c now) (past ++ [Config c' opens]) r
  | i :: r => metrics_while switch c now (past ++ [i]) r
  end.

Lemma called_app : forall a p q n, called a (p ++ q) n = called a q (called a p n).
Proof. induction p as [|i p IH]; intros q n; [reflexivity|]. destruct i; cbn [app called]; apply IH. Qed.
Lemma name_forget : forall a b l, name_of a (forget b l) = if N.eqb a b then [] else name_of a l.
Proof.
  induction l as [|[c n] l IH]; [cbn; destruct (N.eqb a b); reflexivity|]. unfold forget in *. cbn [filter fst]. destruct (N.eqb b c) eqn:E; cbn [negb].
  - apply N.eqb_eq in E. subst c. rewrite IH. cbn [name_of]. destruct (N.eqb a b); reflexivity.
  - cbn [name_of]. destruct (N.eqb a c) eqn:F; [|exact IH]. apply N.eqb_eq in F. subst c. rewrite N.eqb_sym, E. reflexivity.
Qed.
(** Names are kept as the specification says. *)
Definition named (past : list input) (s : state) : Prop := forall a, name_of a (names s) = called a past [].
Lemma names_finish : forall s, names (finish_slice s) = names s.
Proof. intros s. unfold finish_slice. destruct (builder s); reflexivity. Qed.
Lemma names_record : forall m s, names (record m s) = names s.
Proof.
  intros m s. unfold record. cbn [names]. destruct (c_self (cfg s)); [|reflexivity]. unfold record_internally. destruct (finite m); [|reflexivity]. cbv zeta.
  match goal with |- names (if ?b then _ else _) = _ => destruct b end; [rewrite names_finish|]; reflexivity.
Qed.
Lemma named_step : forall past i s, named past s -> named (past ++ [i]) (step i s).
Proof.
  intros past i s H a. rewrite called_app. destruct i as [b n|b|b k v|n|c o|]; cbn [step called].
  - cbn [names name_of]. rewrite name_forget, <- (H a). destruct (N.eqb a b); reflexivity.
  - cbn [names]. rewrite name_forget, <- (H a). reflexivity.
  - rewrite names_record. apply H.
  - apply H.
  - apply H.
  - rewrite names_finish. apply H.
Qed.

(** * The internal sink *)
Definition rows (s : state) : list metric := concat (sent s) ++ concat (buffer s) ++ builder s.
Definition keeps (size : nat) (s : state) : Prop := c_self (cfg s) = true /\ c_size (cfg s) = size /\ length (builder s) < size.
Lemma rows_finish : forall s, rows (finish_slice s) = rows s.
Proof. intros s. unfold rows, finish_slice. destruct (builder s) as [|m l] eqn:E; [rewrite E; reflexivity|]. cbn [sent buffer builder]. rewrite concat_app. cbn [concat]. rewrite !app_nil_r. reflexivity. Qed.
Definition quiet (i : input) : Prop := match i with Config _ _ => False | _ => True end.
(** While the internal sink is on and its size stays, each finite metric is in the slices sent, waiting or
    being built, once and in order, with the name of its actor. *)
Theorem C81_internal : forall c opens is, c_self c = true -> (0 < c_size c)%nat -> Forall quiet is ->
  let s := run is (start c opens) in concat (sent s) ++ concat (buffer s) ++ builder s = filter finite (metrics [] is) /\ length (builder s) < c_size c.
Proof.
  intros c opens is On Z F.
  assert (forall is past s, Forall quiet is -> named past s -> keeps (c_size c) s -> rows (run is s) = rows s ++ filter finite (metrics past is) /\ keeps (c_size c) (run is s)) as G.
  2: { assert (named [] (start c opens)) as Nm by (intros a; reflexivity). assert (keeps (c_size c) (start c opens)) as K by (repeat split; assumption).
       destruct (G is [] (start c opens) F Nm K) as [E (_ & _ & L)]. split; [|exact L]. exact E. }
  clear is F. induction is as [|i is IH]; intros past s F Nm K; [cbn; rewrite app_nil_r; auto|]. inversion F as [|? ? Q F']; subst. unfold run in *. cbn [fold_left].
  assert (keeps (c_size c) (step i s) /\ rows (step i s) = rows s ++ match i with Metric a k v => filter finite [ {| m_name := called a past []; m_key := k; m_value := v |} ] | _ => [] end) as [K1 R1].
  { destruct K as (A & B & D). destruct i as [b n|b|b k v|n|c' o|]; cbn in Q; try contradiction; cbn [step]; rewrite ?app_nil_r.
    - split; [repeat split; assumption|reflexivity].
    - split; [repeat split; assumption|reflexivity].
    - rewrite (Nm b). set (m := {| m_name := called b past []; m_key := k; m_value := v |}). unfold record. rewrite A. unfold record_internally. cbn [filter]. destruct (finite m).
      + cbv zeta. cbn [builder cfg]. rewrite B. destruct (Nat.eqb_spec (length (builder s ++ [m])) (c_size c)) as [E|E]; rewrite app_length in E; cbn [length] in E.
        * unfold finish_slice. cbn [builder]. destruct (builder s ++ [m]) as [|x l] eqn:X; [destruct (builder s); discriminate|]. split.
          -- unfold keeps. cbn [cfg builder]. repeat split; auto; cbn; lia.
          -- unfold rows. cbn [sent buffer builder]. rewrite concat_app. cbn [concat]. rewrite !app_nil_r, <- X, !app_assoc. reflexivity.
        * split.
          -- unfold keeps. cbn [cfg builder]. rewrite app_length. cbn [length]. repeat split; auto; lia.
          -- unfold rows. cbn [sent buffer builder]. rewrite !app_assoc. reflexivity.
      + rewrite app_nil_r. split; [repeat split; assumption|reflexivity].
    - split; [repeat split; assumption|]. unfold rows. cbn [sent buffer builder]. rewrite concat_app, <- app_assoc. f_equal. rewrite app_assoc, <- concat_app, firstn_skipn. reflexivity.
    - rewrite rows_finish. split; [|reflexivity]. unfold keeps, finish_slice. destruct (builder s) eqn:X; [rewrite X; repeat split; assumption|]. cbn [cfg builder length]. repeat split; auto; lia. }
  destruct (IH (past ++ [i]) (step i s) F' (named_step past i s Nm) K1) as [E K2]. split; [|exact K2]. rewrite E, R1, <- app_assoc. f_equal. destruct i; cbn [metrics app filter]; try reflexivity.
  destruct (finite _); reflexivity.
Qed.
(** When the accountant ends, no row is left behind: all are in slices. *)
Theorem C81_exit : forall c opens is, c_self c = true -> (0 < c_size c)%nat -> Forall quiet is ->
  let s := run (is ++ [Exit]) (start c opens) in concat (sent s ++ buffer s) = filter finite (metrics [] is).
Proof.
  intros c opens is On Z F s. destruct (C81_internal c opens is On Z F) as [E _]. cbv zeta in E. unfold s, run. rewrite fold_left_app. cbn [fold_left step]. fold (run is (start c opens)).
  rewrite <- E. set (t := run is (start c opens)). pose proof (rows_finish t) as R. unfold rows in R. assert (builder (finish_slice t) = []) as B by (unfold finish_slice; destruct (builder t) eqn:X; [exact X|reflexivity]).
  rewrite B, app_nil_r in R. rewrite concat_app. exact R.
Qed.
(** While the internal sink is off, it gets nothing. *)
Theorem C81_off : forall c opens is, c_self c = false -> Forall quiet is -> let s := run is (start c opens) in sent s = [] /\ buffer s = [] /\ builder s = [].
Proof.
  intros c opens is Off F.
  assert (forall is s, Forall quiet is -> c_self (cfg s) = false -> sent s = [] -> buffer s = [] -> builder s = [] -> sent (run is s) = [] /\ buffer (run is s) = [] /\ builder (run is s) = []) as G; [|apply G; auto].
  clear is F. induction is as [|i is IH]; intros s F A B C D; [auto|]. inversion F as [|? ? Q F']; subst. unfold run in *. cbn [fold_left].
  assert (c_self (cfg (step i s)) = false /\ sent (step i s) = [] /\ buffer (step i s) = [] /\ builder (step i s) = []) as (X1 & X2 & X3 & X4); [|apply IH; assumption].
  destruct i as [b n|b|b k v|n|c' o|]; cbn in Q; try contradiction; cbn [step].
  - auto.
  - auto.
  - unfold record. rewrite A. auto.
  - cbn [cfg sent buffer builder]. rewrite B, C, D, firstn_nil, skipn_nil. auto.
  - unfold finish_slice. rewrite D. auto.
Qed.
(** Slices that are sent or wait are full, but for the last at the end. *)
Theorem C81_full : forall c opens is, c_self c = true -> (0 < c_size c)%nat -> Forall (fun i => quiet i /\ i <> Exit) is ->
  let s := run is (start c opens) in Forall (fun l => length l = c_size c) (sent s ++ buffer s).
Proof.
  intros c opens is On Z F.
  assert (forall is s, Forall (fun i => quiet i /\ i <> Exit) is -> c_size (cfg s) = c_size c -> Forall (fun l => length l = c_size c) (sent s ++ buffer s) ->
    Forall (fun l => length l = c_size c) (sent (run is s) ++ buffer (run is s))) as G; [|apply G; [exact F|reflexivity|constructor] ].
  clear is F. induction is as [|i is IH]; intros s F S H; [exact H|]. inversion F as [|? ? [Q X] F']; subst. unfold run in *. cbn [fold_left]. apply IH; [assumption| |].
  - destruct i as [b n|b|b k v|n|c' o|]; cbn in Q; try contradiction; try assumption; cbn [step]; try congruence. unfold record. cbn [cfg]. destruct (c_self (cfg s)); [|assumption].
    unfold record_internally. destruct (finite _); [|assumption]. cbv zeta. cbn [builder cfg]. destruct (length _ =? _); [|assumption]. unfold finish_slice. cbn [builder]. destruct (builder s ++ _); assumption.
  - destruct i as [b n|b|b k v|n|c' o|]; cbn in Q; try contradiction; try assumption; cbn [step]; try congruence.
    + unfold record. cbn [sent buffer]. destruct (c_self (cfg s)); [|assumption]. unfold record_internally. destruct (finite _); [|assumption]. cbv zeta. cbn [builder cfg].
      match goal with |- context [length ?l =? _] => destruct (Nat.eqb_spec (length l) (c_size (cfg s))) as [E|E]; [|exact H]; unfold finish_slice; cbn [builder]; destruct l as [|x l'] eqn:Y; [exact H|] end.
      cbn [sent buffer]. rewrite app_assoc. apply Forall_app. split; [exact H|]. constructor; [congruence|constructor].
    + cbn [sent buffer]. rewrite <- app_assoc, firstn_skipn. exact H.
Qed.

(** * Files *)
Definition lines_to (p : list N) (s : state) : list metric := map snd (filter (fun o => bytes_eqb p (fst o)) (outputs s)).
(** The file is on after a configuration that switches it on and could open it, until one switches it
    off. *)
Definition file_switch (c' : config) (opens : list N -> bool) (c : config) (now : bool) : bool :=
  match c_file c', c_file c with
  | Some p, None => opens p
  | Some _, Some _ => now
  | None, _ => false
  end.
Lemma bytes_eqb_refl' : forall p, bytes_eqb p p = true.
Proof. induction p as [|x p IH]; [reflexivity|]. cbn. rewrite N.eqb_refl. exact IH. Qed.
(** If all configurations that have a file have the same one and have no socket, the file gets exactly the
    metrics recorded while it is on, in order. *)
Definition same_file (p : list N) (i : input) : Prop := match i with Config c _ => (c_file c = None \/ c_file c = Some p) /\ c_uds c = None | _ => True end.
Theorem C81_file : forall p c opens is, (c_file c = None \/ c_file c = Some p) -> c_uds c = None -> Forall (same_file p) is ->
  lines_to p (run is (start c opens)) = metrics_while file_switch c (file_switch c opens defaults false) [] is /\ Forall (fun o => fst o = p) (outputs (run is (start c opens))).
Proof.
  intros p c opens is Fc Uc F.
  assert (forall is past s (now : bool), Forall (same_file p) is -> named past s -> (c_file (cfg s) = None \/ c_file (cfg s) = Some p) -> c_uds (cfg s) = None -> uds_sink s = None -> datagram_sink s = None ->
    file_sink s = (if now then Some p else None) -> (c_file (cfg s) = None -> now = false) -> Forall (fun o => fst o = p) (outputs s) ->
    lines_to p (run is s) = lines_to p s ++ metrics_while file_switch (cfg s) now past is /\ Forall (fun o => fst o = p) (outputs (run is s))) as G.
  2: { specialize (G is [] (start c opens) (file_switch c opens defaults false) F). unfold lines_to in G at 2. cbn [start apply_config outputs filter map app cfg] in G. apply G; clear G; try (intros a; reflexivity); try assumption; try constructor.
       - unfold start, apply_config. cbn. rewrite Uc. reflexivity.
       - unfold start, apply_config. cbn. rewrite Uc. reflexivity.
       - unfold start, apply_config, file_switch. cbn. destruct Fc as [->| ->]; cbn; [reflexivity|]. destruct (opens p); reflexivity.
       - unfold file_switch. intros ->. reflexivity. }
  clear is F c opens Fc Uc. induction is as [|i is IH]; intros past s now F Nm Fc Uc U D S W O; [cbn; rewrite app_nil_r; auto|]. inversion F as [|? ? Q F']; subst. unfold run in *. cbn [fold_left].
  pose proof (named_step past i s Nm) as Nm'. destruct i as [b n|b|b k v|n|c' o|].
  - cbn [metrics_while]. apply (IH (past ++ [Announce b n]) (step (Announce b n) s) now); assumption.
  - cbn [metrics_while]. apply (IH (past ++ [Down b]) (step (Down b) s) now); assumption.
  - cbn [metrics_while step] in *. rewrite (Nm b) in *. set (m := {| m_name := called b past []; m_key := k; m_value := v |}) in *.
    assert (cfg (record m s) = cfg s /\ uds_sink (record m s) = None /\ datagram_sink (record m s) = None /\ file_sink (record m s) = file_sink s /\ outputs (record m s) = emit (file_sink s) m (outputs s)) as (E1 & E2 & E3 & E4 & E5).
    { unfold record. set (s1 := if c_self (cfg s) then record_internally m s else s).
      assert (cfg s1 = cfg s /\ uds_sink s1 = uds_sink s /\ datagram_sink s1 = datagram_sink s /\ file_sink s1 = file_sink s /\ outputs s1 = outputs s) as (-> & X2 & X3 & -> & X5).
      { unfold s1. destruct (c_self (cfg s)); [|auto]. unfold record_internally. destruct (finite m); [|auto]. cbv zeta. cbn [builder cfg]. destruct (length _ =? _); [|auto]. unfold finish_slice. cbn [builder]. destruct (builder s ++ [m]); auto. }
      cbn [cfg uds_sink datagram_sink file_sink outputs]. rewrite X2, X3, X5, U, D. auto. }
    destruct (IH (past ++ [Metric b k v]) (record m s) now) as [A B]; rewrite ?E1, ?E2, ?E3, ?E4; try assumption; try reflexivity.
    + rewrite E5, S. destruct now; cbn [emit]; [|exact O]. apply Forall_app. split; [exact O|repeat constructor].
    + split; [|exact B]. rewrite A, E1. replace (lines_to p (record m s)) with (lines_to p s ++ (if now then [m] else [])); [rewrite <- app_assoc; reflexivity|].
      unfold lines_to. rewrite E5, S. destruct now; cbn [emit]; [|apply app_nil_r]. rewrite filter_app, map_app. cbn [filter fst]. rewrite bytes_eqb_refl'. reflexivity.
  - cbn [metrics_while]. apply (IH (past ++ [Pull n]) (step (Pull n) s) now); assumption.
  - cbn [metrics_while same_file] in *. destruct Q as [Q1 Q2]. specialize (IH (past ++ [Config c' o]) (step (Config c' o) s) (file_switch c' o (cfg s) now)).
    cbn [step] in *. apply IH; clear IH; try assumption.
    + unfold apply_config. cbn [uds_sink]. rewrite Q2, Uc. cbn. exact U.
    + unfold apply_config. cbn [datagram_sink]. rewrite Q2, Uc. cbn. exact D.
    + unfold apply_config, file_switch. cbn [file_sink]. destruct Fc as [Fc|Fc], Q1 as [Q1|Q1]; rewrite Fc, Q1; cbn [on negb andb].
      * rewrite S, (W Fc). reflexivity.
      * destruct (o p); [reflexivity|]. rewrite S, (W Fc). reflexivity.
      * reflexivity.
      * exact S.
    + unfold apply_config, file_switch. cbn [cfg]. intros ->. reflexivity.
  - cbn [metrics_while]. assert (cfg (finish_slice s) = cfg s /\ uds_sink (finish_slice s) = uds_sink s /\ datagram_sink (finish_slice s) = datagram_sink s /\ file_sink (finish_slice s) = file_sink s /\ outputs (finish_slice s) = outputs s) as (E1 & E2 & E3 & E4 & E5) by (unfold finish_slice; destruct (builder s); auto).
    destruct (IH (past ++ [Exit]) (step Exit s) now) as [A B]; cbn [step] in *; rewrite ?E1, ?E2, ?E3, ?E4, ?E5; try assumption.
    unfold lines_to in *. rewrite E1, E5 in A. auto.
Qed.

(** * Sockets *)
(** A socket of the stream type is on after a configuration that switches it on and could open it, until one switches it
    off. *)
Definition socket_switch (c' : config) (opens : list N -> bool) (c : config) (now : bool) : bool :=
  match c_uds c', c_uds c with
  | Some p, None => opens p
  | Some _, Some _ => now
  | None, _ => false
  end.
(** If all configurations that have a socket have the same one, a stream, and no file, the socket gets exactly the
    metrics recorded while it is on, in order. *)
Definition same_socket (p : list N) (i : input) : Prop := match i with Config c _ => (c_uds c = None \/ c_uds c = Some p) /\ c_file c = None /\ c_datagram c = false | _ => True end.
Theorem C81_socket : forall p c opens is, (c_uds c = None \/ c_uds c = Some p) -> c_file c = None -> c_datagram c = false -> Forall (same_socket p) is ->
  lines_to p (run is (start c opens)) = metrics_while socket_switch c (socket_switch c opens defaults false) [] is /\ Forall (fun o => fst o = p) (outputs (run is (start c opens))).
Proof.
  intros p c opens is Fc Uc Dc F.
  assert (forall is past s (now : bool), Forall (same_socket p) is -> named past s -> (c_uds (cfg s) = None \/ c_uds (cfg s) = Some p) -> c_file (cfg s) = None -> file_sink s = None -> datagram_sink s = None ->
    uds_sink s = (if now then Some p else None) -> (c_uds (cfg s) = None -> now = false) -> Forall (fun o => fst o = p) (outputs s) ->
    lines_to p (run is s) = lines_to p s ++ metrics_while socket_switch (cfg s) now past is /\ Forall (fun o => fst o = p) (outputs (run is s))) as G.
  2: { specialize (G is [] (start c opens) (socket_switch c opens defaults false) F). unfold lines_to in G at 2. cbn [start apply_config outputs filter map app cfg] in G. apply G; clear G; try (intros a; reflexivity); try assumption; try constructor.
       - unfold start, apply_config. cbn. rewrite Uc. reflexivity.
       - unfold start, apply_config. cbn. rewrite Dc, andb_false_r. reflexivity.
       - unfold start, apply_config, socket_switch. cbn. rewrite Dc. destruct Fc as [->| ->]; cbn; [reflexivity|]. destruct (opens p); reflexivity.
       - unfold socket_switch. intros ->. reflexivity. }
  clear is F c opens Fc Uc Dc. induction is as [|i is IH]; intros past s now F Nm Fc Uc U D S W O; [cbn; rewrite app_nil_r; auto|]. inversion F as [|? ? Q F']; subst. unfold run in *. cbn [fold_left].
  pose proof (named_step past i s Nm) as Nm'. destruct i as [b n|b|b k v|n|c' o|].
  - cbn [metrics_while]. apply (IH (past ++ [Announce b n]) (step (Announce b n) s) now); assumption.
  - cbn [metrics_while]. apply (IH (past ++ [Down b]) (step (Down b) s) now); assumption.
  - cbn [metrics_while step] in *. rewrite (Nm b) in *. set (m := {| m_name := called b past []; m_key := k; m_value := v |}) in *.
    assert (cfg (record m s) = cfg s /\ file_sink (record m s) = None /\ datagram_sink (record m s) = None /\ uds_sink (record m s) = uds_sink s /\ outputs (record m s) = emit (uds_sink s) m (outputs s)) as (E1 & E2 & E3 & E4 & E5).
    { unfold record. set (s1 := if c_self (cfg s) then record_internally m s else s).
      assert (cfg s1 = cfg s /\ file_sink s1 = file_sink s /\ datagram_sink s1 = datagram_sink s /\ uds_sink s1 = uds_sink s /\ outputs s1 = outputs s) as (-> & X2 & X3 & -> & X5).
      { unfold s1. destruct (c_self (cfg s)); [|auto]. unfold record_internally. destruct (finite m); [|auto]. cbv zeta. cbn [builder cfg]. destruct (length _ =? _); [|auto]. unfold finish_slice. cbn [builder]. destruct (builder s ++ [m]); auto. }
      cbn [cfg file_sink datagram_sink uds_sink outputs]. rewrite X2, X3, X5, U, D. auto. }
    destruct (IH (past ++ [Metric b k v]) (record m s) now) as [A B]; rewrite ?E1, ?E2, ?E3, ?E4; try assumption; try reflexivity.
    + rewrite E5, S. destruct now; cbn [emit]; [|exact O]. apply Forall_app. split; [exact O|repeat constructor].
    + split; [|exact B]. rewrite A, E1. replace (lines_to p (record m s)) with (lines_to p s ++ (if now then [m] else [])); [rewrite <- app_assoc; reflexivity|].
      unfold lines_to. rewrite E5, S. destruct now; cbn [emit]; [|apply app_nil_r]. rewrite filter_app, map_app. cbn [filter fst]. rewrite bytes_eqb_refl'. reflexivity.
  - cbn [metrics_while]. apply (IH (past ++ [Pull n]) (step (Pull n) s) now); assumption.
  - cbn [metrics_while same_socket] in *. destruct Q as (Q1 & Q2 & Q3). specialize (IH (past ++ [Config c' o]) (step (Config c' o) s) (socket_switch c' o (cfg s) now)).
    cbn [step] in *. apply IH; clear IH; try assumption.
    + unfold apply_config. cbn [file_sink]. rewrite Q2, Uc. cbn. exact U.
    + unfold apply_config. cbn [datagram_sink]. rewrite Q3, andb_false_r. exact D.
    + unfold apply_config, socket_switch. cbn [uds_sink]. rewrite Q3. destruct Fc as [Fc|Fc], Q1 as [Q1|Q1]; rewrite Fc, Q1; cbn [on negb andb].
      * rewrite S, (W Fc). reflexivity.
      * destruct (o p); [reflexivity|]. rewrite S, (W Fc). reflexivity.
      * reflexivity.
      * exact S.
    + unfold apply_config, socket_switch. cbn [cfg]. intros ->. reflexivity.
  - cbn [metrics_while]. assert (cfg (finish_slice s) = cfg s /\ file_sink (finish_slice s) = file_sink s /\ datagram_sink (finish_slice s) = datagram_sink s /\ uds_sink (finish_slice s) = uds_sink s /\ outputs (finish_slice s) = outputs s) as (E1 & E2 & E3 & E4 & E5) by (unfold finish_slice; destruct (builder s); auto).
    destruct (IH (past ++ [Exit]) (step Exit s) now) as [A B]; cbn [step] in *; rewrite ?E1, ?E2, ?E3, ?E4, ?E5; try assumption.
    unfold lines_to in *. rewrite E1, E5 in A. auto.
Qed.

(** * What is not so *)
Definition yes (p : list N) : bool := true.
Definition conf (f u : option (list N)) (d : bool) : config := {| c_self := true; c_size := 2; c_file := f; c_uds := u; c_datagram := d |}.
(** A socket for datagrams stays on when it is switched off. *)
Theorem C81_datagram_refuted : exists is, nth_error is 0 = Some (Config (conf None None true) yes) /\ exists m, In ([120%N], m) (outputs (run is (start (conf None (Some [120%N]) true) yes))).
Proof. exists [Config (conf None None true) yes; Metric 1 [107%N] (Some 7%N)]. split; [reflexivity|]. eexists. cbn. left. reflexivity. Qed.
(** A new path for a file that is on is ignored. *)
Theorem C81_path_refuted : exists is s, s = run is (start (conf (Some [97%N]) None false) yes) /\ c_file (cfg s) = Some [98%N] /\ lines_to [98%N] s = [] /\ length (lines_to [97%N] s) = 1.
Proof. exists [Config (conf (Some [98%N]) None false) yes; Metric 1 [107%N] (Some 7%N)]. eexists. split; [reflexivity|]. vm_compute. auto. Qed.
(** A file that could not be opened is not tried again by the same configuration. *)
Theorem C81_retry_refuted : exists is s, s = run is (start (conf (Some [97%N]) None false) (fun _ => false)) /\ is = [Config (conf (Some [97%N]) None false) yes; Metric 1 [107%N] (Some 7%N)] /\ outputs s = [].
Proof. eexists. eexists. split; [reflexivity|]. split; [reflexivity|]. reflexivity. Qed.
(** If the size of slices is lowered to fewer than the rows at hand, slices are not finished any more: the
    rows pile up until the accountant ends. *)
Theorem C81_size_refuted : forall n, exists is s, s = run is (start (conf None None false) yes) /\ c_size (cfg s) = 1 /\ sent s ++ buffer s = [] /\ length (builder s) = S n.
Proof.
  intros n. set (c1 := {| c_self := true; c_size := 1; c_file := None; c_uds := None; c_datagram := false |}).
  exists ([Metric 1 [107%N] (Some 7%N); Config c1 yes] ++ repeat (Metric 1 [107%N] (Some 7%N)) n). eexists. split; [reflexivity|]. unfold run. rewrite fold_left_app. cbn [fold_left].
  set (s0 := step (Config c1 yes) (step (Metric 1 [107%N] (Some 7%N)) (start (conf None None false) yes))).
  assert (forall n s, cfg s = c1 -> sent s = [] -> buffer s = [] -> 1 <= length (builder s) -> let s' := fold_left (fun s i => step i s) (repeat (Metric 1 [107%N] (Some 7%N)) n) s in
    c_size (cfg s') = 1 /\ sent s' ++ buffer s' = [] /\ length (builder s') = length (builder s) + n) as G.
  { clear. induction n as [|n IH]; intros s E1 E2 E3 L; cbn [repeat fold_left]; [rewrite E1, E2, E3; repeat split; cbn; lia|].
    set (s1 := step (Metric 1 [107%N] (Some 7%N)) s). assert (cfg s1 = c1 /\ sent s1 = [] /\ buffer s1 = [] /\ length (builder s1) = S (length (builder s))) as (A & B & C & D).
    { unfold s1. cbn [step]. unfold record. rewrite E1. cbn [c_self c1]. unfold record_internally. cbn [finite m_value]. cbv zeta. cbn [builder cfg]. rewrite E1. cbn [c_size c1]. rewrite app_length. cbn [length].
      destruct (Nat.eqb_spec (length (builder s) + 1) 1); [lia|]. cbn [cfg sent buffer builder]. rewrite app_length. cbn [length]. repeat split; auto; lia. }
    destruct (IH s1 A B C ltac:(lia)) as (X & Y & Z). repeat split; auto. rewrite Z. lia. }
  destruct (G n s0 eq_refl eq_refl eq_refl (le_n 1)) as (X & Y & Z). repeat split; assumption.
Qed.
(** Metrics that are not finite are written to a file and not recorded internally. *)
Theorem C81_finite_refuted : exists is s, s = run is (start (conf (Some [97%N]) None false) yes) /\ length (outputs s) = 1 /\ rows s = [].
Proof. exists [Metric 1 [107%N] None]. eexists. split; [reflexivity|]. vm_compute. auto. Qed.

Definition story : list input := [Announce 1 [105%N]; Metric 1 [107%N] (Some 7%N); Metric 2 [107%N] (Some 8%N); Metric 1 [108%N] None; Down 1; Metric 1 [107%N] (Some 9%N); Pull 5; Exit].
Example C81_example : Forall quiet story /\ map (map m_value) (sent (run story (start (conf (Some [97%N]) None false) yes))) = [ [Some 7%N; Some 8%N] ] /\
  map (fun m => (m_name m, m_value m)) (lines_to [97%N] (run story (start (conf (Some [97%N]) None false) yes))) = [([105%N], Some 7%N); ([], Some 8%N); ([105%N], None); ([], Some 9%N)] /\
  length (buffer (run story (start (conf (Some [97%N]) None false) yes))) = 1.
Proof. split; [repeat constructor|]. vm_compute. auto. Qed.

(** A socket that is switched on, off, and on again in vain. *)
Definition talk : list input := [Announce 1 [105%N]; Config (conf None (Some [97%N]) false) yes; Metric 1 [107%N] (Some 7%N); Config (conf None None false) yes; Metric 1 [107%N] (Some 8%N);
  Config (conf None (Some [97%N]) false) (fun _ => false); Metric 1 [107%N] (Some 9%N)].
Example C81_socket_example : Forall (same_socket [97%N]) talk /\ map m_value (lines_to [97%N] (run talk (start defaults yes))) = [Some 7%N] /\ length (builder (run talk (start defaults yes))) = 1.
Proof. split; [repeat (apply Forall_cons; [cbn; auto|]); constructor|]. vm_compute. auto. Qed.

Definition assumptions_accountant := (C81_internal, C81_exit, C81_off, C81_full, C81_file, C81_socket, C81_datagram_refuted, C81_path_refuted, C81_retry_refuted, C81_size_refuted, C81_finite_refuted).
Print Assumptions assumptions_accountant.
