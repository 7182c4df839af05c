(** Proofs about the archive. *)
From Coq Require Import List NArith Bool Arith Lia Permutation.
From Verif Require Import OperatorModel DataModel TypeModel ExpressionModel TableSliceModel ArchiveModel.
Import ListNotations.
Open Scope nat_scope.

(** * Reading the log *)

Definition gots (l : list event) : list got := flat_map (fun e => match e with Got g => [g] | _ => [] end) l.
Definition msgs (l : list event) : list (sink * message) := flat_map (fun e => match e with Msg k m => [(k, m)] | _ => [] end) l.
Definition filed (l : list event) : list promise := flat_map (fun e => match e with Filed p _ _ => [p] | _ => [] end) l.
Definition answers (l : list event) : list promise := flat_map (fun e => match e with Answered p _ => [p] | _ => [] end) l.
Definition opens (l : list event) : list promise := flat_map (fun e => match e with Opened p _ _ => [p] | _ => [] end) l.
(** The sink of the query is down, or the query does not fit some slice. *)
Definition spoiled (q : query) (l : list event) : Prop := (exists k, sink_of q = Some k /\ In (Down k) l) \/ In (Unfit q) l.

(** The same query, or one that compares equal to it. *)
Definition same (q' q : query) : Prop := q' = q \/ query_eqb q' q = true.

Lemma nodup_snoc : forall {A} (l : list A) x, NoDup l -> ~ In x l -> NoDup (l ++ [x]).
Proof.
  induction l as [|y l IH]; intros x H1 H2; cbn [app]; [repeat constructor; auto|]. inversion H1; subst. cbn [In] in H2. constructor; [|apply IH; auto]. rewrite in_app_iff. cbn [In]. intros [H|[H|[]]]; auto.
Qed.
Section Proofs.
  Variable serve : query -> list bool -> slice -> served.
  Definition emits (q : query) (xs : list bool) (s : slice) : list (sink * message) :=
    match serve q xs s, sink_of q with Sent ms, Some k => map (pair k) ms | _, _ => [] end.
  (** A session was opened for the request; the store gave slices and then the end, and no other
      session was opened before the answer; what was sent in between is what the slices call for. *)
  Definition complete (p : promise) (q : query) (xs : list bool) (l : list event) : Prop :=
    exists a b c ss, l = a ++ Opened p q xs :: b ++ Answered p true :: c /\ opens b = [] /\
      gots b = map GSlice ss ++ [GEnd] /\ Forall (fun s => exists ms, serve q xs s = Sent ms) ss /\ msgs b = flat_map (emits q xs) ss.
  Definition good (p : promise) (l : list event) : Prop :=
    exists q xs, In (Filed p q xs) l /\
      ((q_cmd q = Erase /\ In (Erased xs) l) \/ exists q', same q' q /\ (spoiled q' l \/ complete p q' xs l)).
  Definition bad (p : promise) (l : list event) : Prop :=
    exists q xs q', In (Filed p q xs) l /\ same q' q /\ (In (Got GError) l \/ In (Unfit q') l).
  (** The messages that the log calls for. *)
  Fixpoint expected (cur : option (query * list bool)) (l : list event) : list (sink * message) :=
    match l with
    | [] => []
    | Opened _ q xs :: r => expected (Some (q, xs)) r
    | Got (GSlice s) :: r => match cur with Some (q, xs) => emits q xs s | None => [] end ++ expected cur r
    | _ :: r => expected cur r
    end.
  Fixpoint latest (cur : option (query * list bool)) (l : list event) : option (query * list bool) :=
    match l with [] => cur | Opened _ q xs :: r => latest (Some (q, xs)) r | _ :: r => latest cur r end.
  Lemma expected_app : forall l cur r, expected cur (l ++ r) = expected cur l ++ expected (latest cur l) r.
  Proof. induction l as [|e l IH]; intros cur r; [reflexivity|]. destruct e as [| | |[s| |]| | | |]; cbn [app expected latest]; rewrite ?IH; try reflexivity. now rewrite app_assoc. Qed.
  Lemma latest_app : forall l cur r, latest cur (l ++ r) = latest (latest cur l) r.
  Proof. induction l as [|e l IH]; intros cur r; [reflexivity|]. destruct e; cbn [app latest]; apply IH. Qed.
  Lemma latest_none : forall l cur, opens l = [] -> latest cur l = cur.
  Proof. induction l as [|e l IH]; intros cur H; [reflexivity|]. destruct e; cbn in *; try discriminate; auto. Qed.

  Lemma answered_in : forall p l, answered p l = true <-> In p (answers l).
  Proof.
    intros p l. unfold answered, answers. rewrite existsb_exists, in_flat_map. split; intros (e & H & E); exists e; (split; [exact H|]); destruct e; try discriminate; try contradiction.
    - apply Nat.eqb_eq in E. subst. now left.
    - destruct E as [->|[]]. apply Nat.eqb_refl.
  Qed.
  Lemma answered_not : forall p l, answered p l = false <-> ~ In p (answers l).
  Proof. intros p l. rewrite <- answered_in. destruct (answered p l); split; congruence. Qed.
  Lemma filed_in : forall p l, In p (filed l) <-> exists q xs, In (Filed p q xs) l.
  Proof.
    intros p l. unfold filed. rewrite in_flat_map. split.
    - intros (e & H & E). destruct e; try contradiction. destruct E as [->|[]]. eauto.
    - intros (q & xs & H). exists (Filed p q xs). split; [exact H|]. now left.
  Qed.
  Lemma spoiled_app : forall q l r, spoiled q l -> spoiled q (l ++ r).
  Proof. intros q l r [(k & K & H)|H]; [left; exists k|right]; rewrite in_app_iff; auto. Qed.
  Lemma complete_app : forall p q xs l r, complete p q xs l -> complete p q xs (l ++ r).
  Proof. intros p q xs l r (a & b & c & ss & -> & H). exists a, b, (c ++ r), ss. split; [|exact H]. rewrite <- app_assoc. cbn [app]. rewrite <- app_assoc. reflexivity. Qed.
  Lemma good_app : forall p l r, good p l -> good p (l ++ r).
  Proof.
    intros p l r (q & xs & F & H). exists q, xs. split; [rewrite in_app_iff; auto|]. destruct H as [[H1 H2]|(q' & E & H)]; [left; rewrite in_app_iff; auto|right; exists q'; split; [exact E|]].
    destruct H; [left; now apply spoiled_app|right; now apply complete_app].
  Qed.
  Lemma bad_app : forall p l r, bad p l -> bad p (l ++ r).
  Proof. intros p l r (q & xs & q' & F & E & H). exists q, xs, q'. rewrite !in_app_iff. tauto. Qed.

  (** * The invariant *)

  Definition queued (rs : list request) : list promise := flat_map (fun r => map snd (rq_queue r)) rs.
  (** [act] has the promise of the session, if it is still open. *)
  Record core (act : list promise) (rs : list request) (l : list event) : Prop := {
    c_act : forall p, In p act -> In p (filed l);
    c_filed : forall p, In p (filed l) -> In p (answers l) \/ In p (act ++ queued rs);
    c_queue : forall r xs p, In r rs -> In (xs, p) (rq_queue r) -> exists q, In (Filed p q xs) l /\ same (rq_query r) q;
    c_open : forall p, In p (act ++ queued rs) -> ~ In p (answers l);
    c_nodup : NoDup (act ++ queued rs);
    c_cancelled : forall r, In r rs -> rq_cancelled r = true -> spoiled (rq_query r) l;
    c_once_filed : NoDup (filed l);
    c_once : NoDup (answers l);
    c_good : forall p, In (Answered p true) l -> good p l;
    c_bad : forall p, In (Answered p false) l -> bad p l;
    c_msgs : msgs l = expected None l
  }.

  (** Events that are neither requests nor answers nor messages. *)
  Definition quiet (e : event) : bool := match e with Down _ | Unfit _ | Erased _ | Opened _ _ _ => true | _ => false end.
  Lemma core_quiet : forall act rs l e, quiet e = true -> core act rs l -> core act rs (l ++ [e]).
  Proof.
    intros act rs l e Q [C0 C1 C2 C3 C4 C5 C6 C7 C8 C9 C10].
    assert (F : filed (l ++ [e]) = filed l) by (unfold filed; rewrite flat_map_app; destruct e; try discriminate; apply app_nil_r).
    assert (A : answers (l ++ [e]) = answers l) by (unfold answers; rewrite flat_map_app; destruct e; try discriminate; apply app_nil_r).
    split; rewrite ?F, ?A; auto.
    - intros r xs p H1 H2. destruct (C2 r xs p H1 H2) as (q & H & E). exists q. rewrite in_app_iff. auto.
    - intros r H1 H2. apply spoiled_app. auto.
    - intros p H. apply in_app_or in H as [H|[H|[]]]; [apply good_app; auto|subst; discriminate].
    - intros p H. apply in_app_or in H as [H|[H|[]]]; [apply bad_app; auto|subst; discriminate].
    - rewrite expected_app. unfold msgs in *. rewrite flat_map_app, C10. f_equal. destruct e; try discriminate; reflexivity.
  Qed.
  (** A slice, the end or an error, with the messages that follow. *)
  Lemma core_got : forall act rs l g q xs ms, core act rs l -> latest None l = Some (q, xs) -> ms = match g with GSlice s => emits q xs s | _ => [] end ->
    core act rs (l ++ Got g :: map (fun x => Msg (fst x) (snd x)) ms).
  Proof.
    intros act rs l g q xs ms [C0 C1 C2 C3 C4 C5 C6 C7 C8 C9 C10] L M. set (t := Got g :: map (fun x => Msg (fst x) (snd x)) ms).
    assert (T1 : filed t = []) by (unfold t; cbn; clear; induction ms; [reflexivity|assumption]). assert (T2 : answers t = []) by (unfold t; cbn; clear; induction ms; [reflexivity|assumption]).
    assert (F : filed (l ++ t) = filed l) by (unfold filed in *; rewrite flat_map_app, T1; apply app_nil_r). assert (A : answers (l ++ t) = answers l) by (unfold answers in *; rewrite flat_map_app, T2; apply app_nil_r).
    assert (NA : forall p d, ~ In (Answered p d) t). { intros p d H. assert (In p (answers t)); [|rewrite T2 in *; contradiction]. unfold answers. apply in_flat_map. eexists. split; [exact H|now left]. }
    split; rewrite ?F, ?A; auto.
    - intros r ys p H1 H2. destruct (C2 r ys p H1 H2) as (q' & H & E). exists q'. rewrite in_app_iff. auto.
    - intros r H1 H2. apply spoiled_app. auto.
    - intros p H. apply in_app_or in H as [H|H]; [apply good_app; auto|now apply NA in H].
    - intros p H. apply in_app_or in H as [H|H]; [apply bad_app; auto|now apply NA in H].
    - rewrite expected_app, L. unfold msgs in *. rewrite flat_map_app, C10. f_equal. unfold t. cbn [flat_map app].
      assert (E1 : flat_map (fun e => match e with Msg k m => [(k, m)] | _ => [] end) (map (fun x => Msg (fst x) (snd x)) ms) = ms) by (clear; induction ms as [|[k m] ms IH]; [reflexivity|cbn; now rewrite IH]).
      assert (E2 : forall c, expected c (map (fun x => Msg (fst x) (snd x)) ms) = []) by (clear; induction ms as [|x ms IH]; intros c; [reflexivity|apply IH]).
      rewrite E1. destruct g; cbn [expected]; rewrite E2, ?app_nil_r; exact M.
  Qed.
  Lemma core_answer : forall act rs l p (d : bool), core (p :: act) rs l -> (if d then good p (l ++ [Answered p d]) else bad p (l ++ [Answered p d])) -> core act rs (l ++ [Answered p d]).
  Proof.
    intros act rs l p d [C0 C1 C2 C3 C4 C5 C6 C7 C8 C9 C10] G.
    assert (F : filed (l ++ [Answered p d]) = filed l) by (unfold filed; rewrite flat_map_app; apply app_nil_r).
    assert (A : answers (l ++ [Answered p d]) = answers l ++ [p]) by (unfold answers; now rewrite flat_map_app).
    cbn [app] in *. split; rewrite ?F, ?A.
    - intros p' H. apply C0. now right.
    - intros p' H. rewrite in_app_iff. cbn [In]. destruct (C1 p' H) as [H'|[H'|H']]; auto.
    - intros r xs p' H1 H2. destruct (C2 r xs p' H1 H2) as (q & H & E). exists q. rewrite in_app_iff. auto.
    - intros p' H. rewrite in_app_iff. intros [H'|[<-|[]]]; [exact (C3 p' (or_intror H) H')|]. inversion C4. contradiction.
    - now inversion C4.
    - intros r H1 H2. apply spoiled_app. auto.
    - exact C6.
    - apply nodup_snoc; [exact C7|]. apply C3. now left.
    - intros p' H. apply in_app_or in H as [H|[H|[]]]; [apply good_app; auto|]. injection H as <- ->. exact G.
    - intros p' H. apply in_app_or in H as [H|[H|[]]]; [apply bad_app; auto|]. injection H as <- ->. exact G.
    - rewrite expected_app. unfold msgs in *. rewrite flat_map_app, C10. f_equal.
  Qed.

  Lemma core_filed : forall act rs l p q xs, core act rs l -> ~ In p (filed l) -> core (p :: act) rs (l ++ [Filed p q xs]).
  Proof.
    intros act rs l p q xs [C0 C1 C2 C3 C4 C5 C6 C7 C8 C9 C10] N.
    assert (F : filed (l ++ [Filed p q xs]) = filed l ++ [p]) by (unfold filed; now rewrite flat_map_app).
    assert (A : answers (l ++ [Filed p q xs]) = answers l) by (unfold answers; rewrite flat_map_app; apply app_nil_r).
    assert (AF : forall p', In p' (answers l) -> In p' (filed l)).
    { intros p' H. unfold answers in H. apply in_flat_map in H as (e & H & E). destruct e as [| | | | | | |p0 d]; try contradiction. destruct E as [->|[]]. apply filed_in.
      destruct d; [destruct (C8 _ H) as (q0 & ys & F0 & _)|destruct (C9 _ H) as (q0 & ys & q1 & F0 & _)]; eauto. }
    assert (QF : forall p', In p' (act ++ queued rs) -> In p' (filed l)).
    { intros p' H. apply in_app_or in H as [H|H]; [auto|]. unfold queued in H. apply in_flat_map in H as (r & R & H). apply in_map_iff in H as ((ys & p0) & <- & H). destruct (C2 r ys p0 R H) as (q0 & F0 & _). apply filed_in. eauto. }
    split; rewrite ?F, ?A.
    - intros p' [<-|H]; rewrite in_app_iff; [right; now left|auto].
    - intros p' H. cbn [app In]. apply in_app_or in H as [H|[<-|[]]]; [|auto]. destruct (C1 p' H); auto.
    - intros r ys p' H1 H2. destruct (C2 r ys p' H1 H2) as (q' & H & E). exists q'. rewrite in_app_iff. auto.
    - intros p' [<-|H]; [|auto]. auto.
    - cbn [app]. constructor; [|exact C4]. auto.
    - intros r H1 H2. apply spoiled_app. auto.
    - now apply nodup_snoc.
    - exact C7.
    - intros p' H. apply in_app_or in H as [H|[H|[]]]; [apply good_app; auto|discriminate].
    - intros p' H. apply in_app_or in H as [H|[H|[]]]; [apply bad_app; auto|discriminate].
    - rewrite expected_app. unfold msgs in *. rewrite flat_map_app, C10. f_equal.
  Qed.
  (** The requests change. *)
  Lemma core_move : forall act rs act' rs' l, core act rs l -> Permutation (act ++ queued rs) (act' ++ queued rs') -> (forall p, In p act' -> In p (filed l)) ->
    (forall r xs p, In r rs' -> In (xs, p) (rq_queue r) -> exists q, In (Filed p q xs) l /\ same (rq_query r) q) ->
    (forall r, In r rs' -> rq_cancelled r = true -> spoiled (rq_query r) l) -> core act' rs' l.
  Proof.
    intros act rs act' rs' l [C0 C1 C2 C3 C4 C5 C6 C7 C8 C9 C10] P F Q S. split; auto.
    - intros p H. destruct (C1 p H) as [H'|H']; [auto|right]. eapply Permutation_in; eassumption.
    - intros p H. apply C3. eapply Permutation_in; [apply Permutation_sym|]; eassumption.
    - eapply Permutation_NoDup; eassumption.
  Qed.

  (** * The next session *)

  Lemma queued_cons : forall r rs, queued (r :: rs) = map snd (rq_queue r) ++ queued rs.
  Proof. reflexivity. Qed.
  Lemma next_spec : forall rs ps rs' o, next_requests rs = (ps, rs', o) ->
    Permutation (queued rs) (ps ++ match o with Some (_, _, p) => [p] | None => [] end ++ queued rs') /\
    (forall p, In p ps -> exists r xs, In r rs /\ In (xs, p) (rq_queue r) /\ rq_cancelled r = true) /\
    (forall r', In r' rs' -> exists r, In r rs /\ rq_query r' = rq_query r /\ rq_cancelled r' = rq_cancelled r /\ incl (rq_queue r') (rq_queue r)) /\
    match o with
    | None => rs' = []
    | Some (q, xs, p) => exists r rest r0, rs' = r :: rest /\ rq_query r = q /\ rq_cancelled r = false /\ In r0 rs /\ rq_query r0 = q /\ In (xs, p) (rq_queue r0)
    end.
  Proof.
    induction rs as [|r rs IH]; intros ps rs' o H; cbn [next_requests] in H.
    - injection H as <- <- <-. repeat split; try reflexivity; intros; contradiction.
    - destruct (next_requests rs) as [[ps1 rs1] o1] eqn:E. specialize (IH _ _ _ eq_refl). destruct IH as (P & D & K & O).
      assert (SKIP : (rq_cancelled r = true \/ rq_queue r = []) -> (map snd (rq_queue r) ++ ps1, rs1, o1) = (ps, rs', o) ->
        Permutation (queued (r :: rs)) (ps ++ match o with Some (_, _, p) => [p] | None => [] end ++ queued rs') /\
        (forall p, In p ps -> exists r0 xs, In r0 (r :: rs) /\ In (xs, p) (rq_queue r0) /\ rq_cancelled r0 = true) /\
        (forall r', In r' rs' -> exists r0, In r0 (r :: rs) /\ rq_query r' = rq_query r0 /\ rq_cancelled r' = rq_cancelled r0 /\ incl (rq_queue r') (rq_queue r0)) /\
        match o with
        | None => rs' = []
        | Some (q, xs, p) => exists r1 rest r0, rs' = r1 :: rest /\ rq_query r1 = q /\ rq_cancelled r1 = false /\ In r0 (r :: rs) /\ rq_query r0 = q /\ In (xs, p) (rq_queue r0)
        end).
      { intros C HE. injection HE as <- <- <-. split; [rewrite queued_cons, <- app_assoc; now apply Permutation_app_head|]. split; [|split].
        - intros p Hp. apply in_app_or in Hp as [Hp|Hp].
          + apply in_map_iff in Hp as ((xs & p0) & <- & Hp). destruct C as [C|C]; [|rewrite C in Hp; contradiction]. exists r, xs. repeat split; [now left|exact Hp|exact C].
          + destruct (D p Hp) as (r0 & xs & H1 & H2). exists r0, xs. split; [now right|exact H2].
        - intros r' Hr. destruct (K r' Hr) as (r0 & H1 & H2). exists r0. split; [now right|exact H2].
        - destruct o1 as [[[q xs] p]|]; [|exact O]. destruct O as (r1 & rest & r0 & H1 & H2 & H3 & H4 & H5). exists r1, rest, r0. repeat split; try assumption; [now right|exact (proj1 H5)|exact (proj2 H5)]. }
      destruct (rq_cancelled r) eqn:C.
      + destruct (rq_queue r); apply SKIP; auto.
      + destruct (rq_queue r) as [|[xs p] more] eqn:Q; [apply SKIP; auto|]. clear SKIP. injection H as <- <- <-. split; [|split; [|split]].
        * rewrite !queued_cons, Q. cbn [map snd app rq_queue]. apply Permutation_refl.
        * intros ? [].
        * intros r' [<-|Hr]; [exists r|exists r'].
          -- cbn [rq_query rq_cancelled rq_queue]. rewrite Q. repeat split; [now left|symmetry; exact C|]. intros x Hx. now right.
          -- repeat split; [now right|apply incl_refl].
        * eexists _, rs, r. split; [reflexivity|]. cbn [rq_query rq_cancelled]. rewrite Q. repeat split; now left.
  Qed.
  (** Promises of cancelled requests are fulfilled. *)
  Lemma deliver_all : forall ps act rs a, core (ps ++ act) rs (a_log a) ->
    (forall p, In p ps -> exists q xs q', In (Filed p q xs) (a_log a) /\ same q' q /\ spoiled q' (a_log a)) ->
    let a' := fold_left (fun a p => deliver p true a) ps a in
    core act rs (a_log a') /\ (exists t, a_log a' = a_log a ++ t /\ opens t = []) /\ a_requests a' = a_requests a /\ a_session a' = a_session a /\ a_ids a' = a_ids a /\ a_active a' = a_active a /\ a_resumes a' = a_resumes a.
  Proof.
    induction ps as [|p ps IH]; intros act rs a C S; cbn [fold_left].
    - split; [exact C|]. split; [exists []; split; [now rewrite app_nil_r|reflexivity]|]. auto.
    - assert (D : deliver p true a = log [Answered p true] a). { unfold deliver. replace (answered p (a_log a)) with false; [reflexivity|]. symmetry. apply answered_not. apply (c_open _ _ _ C). now left. }
      assert (L : a_log (deliver p true a) = a_log a ++ [Answered p true]) by (rewrite D; reflexivity).
      destruct (IH act rs (deliver p true a)) as (H1 & (t & H2 & H3) & H4 & H5 & H6 & H7 & H8).
      + rewrite L. apply core_answer; [exact C|]. destruct (S p (or_introl eq_refl)) as (q & xs & q' & F & E & Sp). exists q, xs. split; [rewrite in_app_iff; auto|]. right. exists q'. split; [exact E|]. left. now apply spoiled_app.
      + intros p' Hp. destruct (S p' (or_intror Hp)) as (q & xs & q' & F & E & Sp). exists q, xs, q'. rewrite L, in_app_iff. repeat split; auto. now apply spoiled_app.
      + split; [exact H1|]. split; [|rewrite D in *; auto]. exists (Answered p true :: t). split; [rewrite H2, L, <- app_assoc; reflexivity|exact H3].
  Qed.

  Definition busy (a : archive) : Prop :=
    exists r rest l1 l2, a_requests a = r :: rest /\ a_log a = l1 ++ Opened (a_active a) (rq_query r) (a_ids a) :: l2 /\ opens l2 = [] /\
      (exists q, In (Filed (a_active a) q (a_ids a)) (a_log a) /\ same (rq_query r) q) /\
      ((core [a_active a] (a_requests a) (a_log a) /\ exists ss, gots l2 = map GSlice ss /\ Forall (fun s => exists ms, serve (rq_query r) (a_ids a) s = Sent ms) ss /\
          msgs l2 = flat_map (emits (rq_query r) (a_ids a)) ss) \/
       (rq_cancelled r = true /\ core [] (a_requests a) (a_log a) /\ In (a_active a) (answers (a_log a)))).
  Definition idle (a : archive) : Prop := a_requests a = [] /\ core [] [] (a_log a).
  Definition inv (a : archive) : Prop := a_resumes a = (if a_session a then 1 else 0) /\ if a_session a then busy a else idle a.

  Lemma next_session_ok : forall a, core [] (a_requests a) (a_log a) ->
    let a' := next_session a in a_resumes a' = a_resumes a /\
    (if a_session a' then busy a' /\ (exists r rest, a_requests a' = r :: rest /\ rq_cancelled r = false) else idle a') /\
    ((exists r xs p, In r (a_requests a) /\ rq_cancelled r = false /\ In (xs, p) (rq_queue r)) -> a_session a' = true).
  Proof.
    intros a C. unfold next_session. destruct (next_requests (a_requests a)) as [[ps rs] o] eqn:E. destruct (next_spec _ _ _ _ E) as (P & D & K & O).
    assert (QF : forall p, In p (queued (a_requests a)) -> In p (filed (a_log a))).
    { intros p H. unfold queued in H. apply in_flat_map in H as (r & R & H). apply in_map_iff in H as ((ys & p0) & <- & H). destruct (c_queue _ _ _ C r ys p0 R H) as (q0 & F0 & _). apply filed_in. eauto. }
    set (op := match o with Some (_, _, p) => [p] | None => [] end) in *.
    assert (C' : core (ps ++ op) rs (a_log a)).
    { eapply core_move; [exact C|rewrite <- app_assoc; exact P| | |].
      - intros p H. apply QF. eapply Permutation_in; [apply Permutation_sym; exact P|]. rewrite app_assoc, in_app_iff. auto.
      - intros r' xs p H1 H2. destruct (K r' H1) as (r & R1 & R2 & R3 & R4). rewrite R2. apply (c_queue _ _ _ C r xs p R1). now apply R4.
      - intros r' H1 H2. destruct (K r' H1) as (r & R1 & R2 & R3 & R4). rewrite R2. apply (c_cancelled _ _ _ C r R1). congruence. }
    assert (S : forall p, In p ps -> exists q xs q', In (Filed p q xs) (a_log a) /\ same q' q /\ spoiled q' (a_log a)).
    { intros p H. destruct (D p H) as (r & xs & R1 & R2 & R3). destruct (c_queue _ _ _ C r xs p R1 R2) as (q & F & Q). exists q, xs, (rq_query r). repeat split; try assumption. now apply (c_cancelled _ _ _ C). }
    destruct (deliver_all ps op rs a C' S) as (H1 & (t & H2 & H3) & H4 & H5 & H6 & H7 & H8). set (b := fold_left (fun a p => deliver p true a) ps a) in *.
    assert (NX : (exists r xs p, In r (a_requests a) /\ rq_cancelled r = false /\ In (xs, p) (rq_queue r)) -> o <> None).
    { intros (r & xs & p & R1 & R2 & R3) ->. subst rs. cbn [app] in P. unfold op in P. cbn [app queued flat_map] in P. rewrite app_nil_r in P.
      assert (IN : In p ps). { eapply Permutation_in; [exact P|]. unfold queued. apply in_flat_map. exists r. split; [exact R1|]. apply in_map_iff. exists (xs, p). auto. }
      clear - E R1 R2 R3. revert ps E R1. induction (a_requests a) as [|r0 rs IH]; intros ps E R1; [contradiction|]. cbn [next_requests] in E. destruct (next_requests rs) as [[ps1 rs1] o1].
      destruct R1 as [->|R1].
      - rewrite R2 in E. destruct (rq_queue r) as [|[ys p'] more]; [contradiction|discriminate].
      - destruct (rq_cancelled r0), (rq_queue r0) as [|[ys p'] more]; try discriminate; injection E as <- -> ->; eapply IH; eauto. }
    destruct o as [[[q xs] p]|]; cbn [set_requests a_requests a_session a_ids a_active a_resumes a_log].
    - split; [exact H8|]. split; [|reflexivity]. destruct O as (r & rest & r0 & O1 & O2 & O3 & O4 & O5 & O6).
      assert (FL : exists q0, In (Filed p q0 xs) (a_log a) /\ same q q0) by (rewrite <- O5; exact (c_queue _ _ _ C r0 xs p O4 O6)).
      split; [|exists r, rest; auto]. destruct FL as (q0 & F0 & F1).
      exists r, rest, (a_log b), []. cbn [a_requests a_session a_ids a_active a_resumes a_log]. rewrite O1, O2. repeat split.
      + exists q0. split; [|exact F1]. rewrite H2, !in_app_iff. auto.
      + left. rewrite <- O1. split; [now apply core_quiet|]. exists []. repeat split. constructor.
    - split; [exact H8|]. split; [|intros X; now apply NX in X]. subst rs. split; [reflexivity|exact H1].
  Qed.

  (** * The handlers *)

  Lemma latest_busy : forall l1 p q xs l2, opens l2 = [] -> latest None (l1 ++ Opened p q xs :: l2) = Some (q, xs).
  Proof. intros l1 p q xs l2 H. rewrite latest_app. cbn [latest]. now apply latest_none. Qed.
  Lemma deliver_new : forall p d a, ~ In p (answers (a_log a)) -> deliver p d a = log [Answered p d] a.
  Proof. intros p d a H. unfold deliver. apply answered_not in H. now rewrite H. Qed.
  Lemma deliver_old : forall p d a, In p (answers (a_log a)) -> deliver p d a = a.
  Proof. intros p d a H. unfold deliver. apply answered_in in H. now rewrite H. Qed.
  Lemma opens_app : forall a b, opens (a ++ b) = opens a ++ opens b.
  Proof. intros. apply flat_map_app. Qed.
  Lemma gots_app : forall a b, gots (a ++ b) = gots a ++ gots b.
  Proof. intros. apply flat_map_app. Qed.
  Lemma msgs_app : forall a b, msgs (a ++ b) = msgs a ++ msgs b.
  Proof. intros. apply flat_map_app. Qed.
  Lemma unpack : forall (ms : list message) k, map (fun x => Msg (fst x) (snd x)) (map (pair k) ms) = map (Msg k) ms.
  Proof. intros ms k. rewrite map_map. reflexivity. Qed.
  Lemma msgs_of : forall (ms : list (sink * message)), msgs (map (fun x => Msg (fst x) (snd x)) ms) = ms.
  Proof. induction ms as [|[k m] ms IH]; [reflexivity|]. cbn. f_equal. exact IH. Qed.
  Lemma opens_of : forall (ms : list (sink * message)), opens (map (fun x => Msg (fst x) (snd x)) ms) = [].
  Proof. induction ms as [|x ms IH]; [reflexivity|exact IH]. Qed.
  Lemma gots_of : forall (ms : list (sink * message)), gots (map (fun x => Msg (fst x) (snd x)) ms) = [].
  Proof. induction ms as [|x ms IH]; [reflexivity|exact IH]. Qed.

  (** The end of a session. *)
  Lemma finish_ok : forall a, a_resumes a = 0 -> core [] (a_requests a) (a_log a) ->
    let a' := next_session a in inv (if a_session a' then set_resumes (S (a_resumes a')) a' else a').
  Proof.
    intros a R C a'. destruct (next_session_ok a C) as (H1 & H2 & _). fold a' in H1, H2. destruct (a_session a') eqn:E.
    - destruct H2 as [H2 _]. split; cbn [set_resumes a_resumes a_session]; rewrite E; [lia|]. exact H2.
    - split; rewrite E; [lia|exact H2].
  Qed.
  Lemma work_ok : forall g a a', a_resumes a = 0 -> busy a -> (exists r rest, a_requests a = r :: rest /\ rq_cancelled r = false) -> a_session a = true -> work serve g a = Some a' -> inv a'.
  Proof.
    intros g a a' R (r & rest & l1 & l2 & Q & L & O & (q & F & QE) & X) (r1 & rest1 & Q1 & NC) SE W. rewrite Q in Q1. injection Q1 as <- <-.
    destruct X as [(C & ss & G & SS & M)|(X & _)]; [|congruence]. unfold work in W. rewrite Q in W. cbn [log a_active a_ids a_requests a_log] in W.
    assert (LT : latest None (a_log a) = Some (rq_query r, a_ids a)) by (rewrite L; now apply latest_busy).
    assert (NA : ~ In (a_active a) (answers (a_log a))) by (apply (c_open _ _ _ C); now left).
    destruct g as [s| |].
    - destruct (serve (rq_query r) (a_ids a) s) as [ms| |] eqn:SV; [| |discriminate].
      + injection W as <-. split; cbn [set_resumes log a_resumes a_session a_log a_requests]; rewrite SE; [lia|].
        set (em := emits (rq_query r) (a_ids a) s). assert (EM : match sink_of (rq_query r) with Some k => map (Msg k) ms | None => [] end = map (fun x => Msg (fst x) (snd x)) em).
        { unfold em, emits. rewrite SV. destruct (sink_of (rq_query r)); [now rewrite unpack|reflexivity]. }
        exists r, rest, l1, (l2 ++ Got (GSlice s) :: map (fun x => Msg (fst x) (snd x)) em). cbn [set_resumes log a_resumes a_session a_log a_requests a_active a_ids].
        rewrite EM, <- app_assoc. cbn [app]. rewrite L at 1. split; [exact Q|]. split; [now rewrite <- app_assoc|]. split; [|split].
        * rewrite opens_app, O. cbn. apply opens_of.
        * exists q. rewrite in_app_iff. auto.
        * left. split; [eapply core_got; [exact C|exact LT|reflexivity]|]. exists (ss ++ [s]). rewrite gots_app, msgs_app, G, M, map_app, flat_map_app. cbn [map flat_map]. rewrite app_nil_r. repeat split.
          -- change (gots (Got (GSlice s) :: map (fun x => Msg (fst x) (snd x)) em)) with (GSlice s :: gots (map (fun x => Msg (fst x) (snd x)) em)). now rewrite gots_of.
          -- apply Forall_app. split; [exact SS|]. constructor; [eauto|constructor].
          -- change (msgs (Got (GSlice s) :: map (fun x => Msg (fst x) (snd x)) em)) with (msgs (map (fun x => Msg (fst x) (snd x)) em)). now rewrite msgs_of.
      + injection W as <-. set (r' := {| rq_query := rq_query r; rq_queue := rq_queue r; rq_cancelled := true |}).
        set (b := log [Unfit (rq_query r)] (set_requests (r' :: rest) (log [Got (GSlice s)] a))).
        assert (BL : a_log b = (a_log a ++ [Got (GSlice s)]) ++ [Unfit (rq_query r)]) by reflexivity.
        assert (C1 : core [a_active a] (r :: rest) (a_log a ++ [Got (GSlice s)])).
        { rewrite <- Q. apply (core_got [a_active a] (a_requests a) (a_log a) (GSlice s) (rq_query r) (a_ids a) [] C LT). unfold emits. now rewrite SV. }
        assert (C2 : core [a_active a] (r' :: rest) (a_log b)).
        { rewrite BL. eapply core_move; [apply core_quiet; [reflexivity|exact C1]|apply Permutation_refl| | |].
          - intros p [<-|[]]. apply filed_in. exists q, (a_ids a). rewrite !in_app_iff. auto.
          - intros r0 xs p [<-|H1] H2; [apply (c_queue _ _ _ (core_quiet _ _ _ (Unfit (rq_query r)) eq_refl C1) r); [now left|exact H2]|apply (c_queue _ _ _ (core_quiet _ _ _ (Unfit (rq_query r)) eq_refl C1) r0); [now right|exact H2]].
          - intros r0 [<-|H1] H2; [right; cbn [r' rq_query]; rewrite in_app_iff; right; now left|apply (c_cancelled _ _ _ (core_quiet _ _ _ (Unfit (rq_query r)) eq_refl C1) r0); [now right|exact H2]]. }
        change (deliver (a_active a) false (log [Unfit (rq_query r)] (set_requests (r' :: rest) (log [Got (GSlice s)] a)))) with (deliver (a_active a) false b).
        rewrite deliver_new by (apply (c_open _ _ _ C2); now left).
        split; cbn [set_resumes log a_resumes a_session a_log a_requests]; change (a_session b) with (a_session a); rewrite SE; [change (a_resumes b) with (a_resumes a); lia|].
        exists r', rest, l1, (l2 ++ [Got (GSlice s); Unfit (rq_query r); Answered (a_active a) false]). cbn [set_resumes log a_resumes a_session a_log a_requests a_active a_ids]. rewrite BL.
        change (a_active b) with (a_active a). change (a_ids b) with (a_ids a). change (a_requests b) with (r' :: rest). split; [reflexivity|]. split; [rewrite L at 1; rewrite <- !app_assoc; reflexivity|]. split; [rewrite opens_app, O; reflexivity|]. split; [exists q; rewrite !in_app_iff; auto|].
        right. split; [reflexivity|]. rewrite <- BL. split.
        * apply core_answer; [exact C2|]. exists q, (a_ids a), (rq_query r). rewrite BL, !in_app_iff. cbn. auto 8.
        * unfold answers. rewrite flat_map_app, in_app_iff. right. now left.
    - (* the end *)
      assert (C1 : core [a_active a] (a_requests a) (a_log a ++ [Got GEnd])) by (apply (core_got [a_active a] (a_requests a) (a_log a) GEnd (rq_query r) (a_ids a) [] C LT eq_refl)).
      rewrite deliver_new in W by (apply (c_open _ _ _ C1); now left). set (b := log [Answered (a_active a) true] (log [Got GEnd] a)) in *.
      assert (I : inv (if a_session (next_session b) then set_resumes (S (a_resumes (next_session b))) (next_session b) else next_session b)).
      { apply finish_ok; [exact R|]. cbn [b log a_requests a_log]. apply core_answer; [exact C1|]. cbv beta iota. exists q, (a_ids a). split; [rewrite !in_app_iff; auto|]. right. exists (rq_query r). split; [exact QE|]. right.
        exists l1, (l2 ++ [Got GEnd]), [], ss. split; [rewrite L at 1; repeat (rewrite <- ?app_assoc; cbn [app]); reflexivity|]. split; [rewrite opens_app, O; reflexivity|]. split; [rewrite gots_app, G; reflexivity|]. split; [exact SS|]. rewrite msgs_app, M. apply app_nil_r. }
      destruct (a_session (next_session b)); injection W as <-; exact I.
    - assert (C1 : core [a_active a] (a_requests a) (a_log a ++ [Got GError])) by (apply (core_got [a_active a] (a_requests a) (a_log a) GError (rq_query r) (a_ids a) [] C LT eq_refl)).
      rewrite deliver_new in W by (apply (c_open _ _ _ C1); now left). set (b := log [Answered (a_active a) false] (log [Got GError] a)) in *.
      assert (I : inv (if a_session (next_session b) then set_resumes (S (a_resumes (next_session b))) (next_session b) else next_session b)).
      { apply finish_ok; [exact R|]. cbn [b log a_requests a_log]. apply core_answer; [exact C1|]. cbv beta iota. exists q, (a_ids a), (rq_query r). rewrite !in_app_iff. cbn. auto 8. }
      destruct (a_session (next_session b)); injection W as <-; exact I.
  Qed.
  (** The promise of a session whose request has been cancelled. *)
  Lemma cancelled_ok : forall a, busy a -> (exists r rest, a_requests a = r :: rest /\ rq_cancelled r = true) -> let b := deliver (a_active a) true a in core [] (a_requests b) (a_log b) /\ a_resumes b = a_resumes a.
  Proof.
    intros a (r & rest & l1 & l2 & Q & L & O & (q & F & QE) & X) (r1 & rest1 & Q1 & CC). rewrite Q in Q1. injection Q1 as <- <-. destruct X as [(C & _)|(_ & C & A)].
    - rewrite deliver_new by (apply (c_open _ _ _ C); now left). split; [|reflexivity]. apply core_answer; [exact C|]. exists q, (a_ids a). split; [rewrite in_app_iff; auto|]. right. exists (rq_query r). split; [exact QE|]. left. apply spoiled_app. apply (c_cancelled _ _ _ C r); [rewrite Q; now left|exact CC].
    - cbn zeta. rewrite deliver_old by exact A. auto.
  Qed.
  Lemma resume_ok : forall g a a', inv a -> 0 < a_resumes a -> on_resume serve g a = Some a' -> inv a'.
  Proof.
    intros g a a' [I1 I2] E H. destruct (a_session a) eqn:SE; [|lia]. unfold on_resume in H. cbn [set_resumes a_session a_requests] in H. rewrite SE in H. cbn [negb] in H.
    set (b := set_resumes (a_resumes a - 1) a) in *. assert (B : busy b) by exact I2. assert (R : a_resumes b = 0) by (cbn; lia).
    destruct (a_requests a) as [|r rest] eqn:Q; [discriminate|]. destruct (rq_cancelled r) eqn:CC.
    - destruct (cancelled_ok b B ltac:(exists r, rest; auto)) as [C1 C2]. set (c := deliver (a_active b) true b) in *. destruct (next_session_ok c C1) as (N1 & N2 & _). set (d := next_session c) in *.
      destruct (a_session d) eqn:SD.
      + destruct N2 as [N2 N3]. eapply work_ok; [|exact N2|exact N3|exact SD|exact H]. lia.
      + injection H as <-. split; rewrite SD; [lia|exact N2].
    - eapply work_ok; [exact R|exact B|exists r, rest; auto|exact SE|exact H].
  Qed.

  Lemma find_request_in : forall q rs r, find_request q rs = Some r -> In r rs /\ query_eqb (rq_query r) q = true.
  Proof. induction rs as [|r0 rs IH]; intros r H; [discriminate|]. cbn [find_request] in H. destruct (query_eqb (rq_query r0) q) eqn:E; [injection H as ->; split; [now left|exact E]|]. destruct (IH r H). split; [now right|assumption]. Qed.
  Lemma queue_up_spec : forall q xs p rs r, find_request q rs = Some r -> Permutation (queued (queue_up q (xs, p) rs)) (p :: queued rs).
  Proof.
    induction rs as [|r0 rs IH]; intros r H; [discriminate|]. cbn [find_request queue_up] in *. destruct (query_eqb (rq_query r0) q) eqn:E.
    - rewrite !queued_cons. cbn [rq_queue]. rewrite map_app. cbn [map snd]. rewrite <- app_assoc. cbn [app]. apply Permutation_sym, Permutation_middle.
    - rewrite !queued_cons. eapply Permutation_trans; [apply Permutation_app_head; eapply IH; exact H|]. apply Permutation_sym, Permutation_middle.
  Qed.
  Lemma queue_up_in : forall q x rs r', In r' (queue_up q x rs) -> exists r, In r rs /\ rq_query r' = rq_query r /\ rq_cancelled r' = rq_cancelled r /\ (rq_queue r' = rq_queue r \/ query_eqb (rq_query r) q = true /\ rq_queue r' = rq_queue r ++ [x]).
  Proof.
    induction rs as [|r0 rs IH]; intros r' H; [contradiction|]. cbn [queue_up] in H. destruct (query_eqb (rq_query r0) q) eqn:E; destruct H as [<-|H].
    - exists r0. cbn. repeat split; auto.
    - exists r'. repeat split; auto. now right.
    - exists r0. repeat split; auto. now left.
    - destruct (IH r' H) as (r & H1 & H2). exists r. split; [now right|exact H2].
  Qed.
  Lemma queue_up_front : forall q x r rest, exists r' rest', queue_up q x (r :: rest) = r' :: rest' /\ rq_query r' = rq_query r /\ rq_cancelled r' = rq_cancelled r.
  Proof. intros. cbn [queue_up]. destruct (query_eqb (rq_query r) q); eexists _, _; (split; [reflexivity|]); auto. Qed.

  (** Requests change while a session goes on. *)
  Lemma busy_more : forall a rs t, busy a -> opens t = [] -> gots t = [] -> msgs t = [] ->
    (exists r rest r' rest', a_requests a = r :: rest /\ rs = r' :: rest' /\ rq_query r' = rq_query r /\ (rq_cancelled r = true -> rq_cancelled r' = true)) ->
    (forall act, core act (a_requests a) (a_log a) -> In (a_active a) act \/ In (a_active a) (answers (a_log a)) -> core act rs (a_log a ++ t)) ->
    forall a', a_requests a' = rs -> a_log a' = a_log a ++ t -> a_ids a' = a_ids a -> a_active a' = a_active a -> busy a'.
  Proof.
    intros a rs t (r & rest & l1 & l2 & Q & L & O & (q & F & QE) & X) T1 T2 T3 (r0 & rest0 & r' & rest' & Q0 & -> & QQ & CC) C a' E1 E2 E3 E4. rewrite Q in Q0. injection Q0 as <- <-.
    exists r', rest', l1, (l2 ++ t). rewrite E1, E2, E3, E4, QQ. split; [reflexivity|]. split; [rewrite L at 1; rewrite <- app_assoc; reflexivity|]. split; [rewrite opens_app, O, T1; reflexivity|]. split; [exists q; rewrite in_app_iff; auto|].
    destruct X as [(X & ss & G & SS & M)|(X1 & X2 & X3)].
    - left. split; [apply C; [exact X|left; now left]|]. exists ss. rewrite gots_app, msgs_app, G, M, T2, T3, !app_nil_r. auto.
    - right. split; [auto|]. split; [now apply C; [|right]|]. unfold answers in *. rewrite flat_map_app, in_app_iff. auto.
  Qed.
  Lemma down_ok : forall k a, inv a -> inv (on_down k a).
  Proof.
    intros k a [I1 I2]. split; cbn [on_down set_requests log a_resumes a_session]; [exact I1|].
    assert (K : forall rs, queued (cancel k rs) = queued rs). { induction rs as [|r rs IH]; [reflexivity|]. cbn [cancel]. destruct (match sink_of (rq_query r) with Some s' => s' =? k | None => false end); [reflexivity|]. now rewrite !queued_cons, IH. }
    assert (K2 : forall rs r', In r' (cancel k rs) -> exists r, In r rs /\ rq_query r' = rq_query r /\ rq_queue r' = rq_queue r /\ (rq_cancelled r' = rq_cancelled r \/ sink_of (rq_query r) = Some k)).
    { induction rs as [|r rs IH]; intros r' H; [contradiction|]. cbn [cancel] in H. destruct (sink_of (rq_query r)) as [s'|] eqn:SK; [destruct (Nat.eqb_spec s' k) as [->|NE]|]; destruct H as [<-|H].
      - exists r. repeat split; auto. now left.
      - exists r'. repeat split; auto. now right.
      - exists r. repeat split; auto. now left.
      - destruct (IH r' H) as (r0 & H1 & H2). exists r0. split; [now right|exact H2].
      - exists r. repeat split; auto. now left.
      - destruct (IH r' H) as (r0 & H1 & H2). exists r0. split; [now right|exact H2]. }
    assert (CM : forall act rs l, core act rs l -> core act (cancel k rs) (l ++ [Down k])).
    { intros act rs l C. eapply core_move; [apply core_quiet; [reflexivity|exact C]|rewrite K; apply Permutation_refl| | |].
      - apply (c_act _ _ _ (core_quiet _ _ _ (Down k) eq_refl C)).
      - intros r' xs p H1 H2. destruct (K2 rs r' H1) as (r & R1 & R2 & R3 & _). rewrite R2. apply (c_queue _ _ _ (core_quiet _ _ _ (Down k) eq_refl C) r); [exact R1|congruence].
      - intros r' H1 H2. destruct (K2 rs r' H1) as (r & R1 & R2 & R3 & R4). rewrite R2. destruct R4 as [R4|R4]; [apply (c_cancelled _ _ _ (core_quiet _ _ _ (Down k) eq_refl C) r); [exact R1|congruence]|]. left. exists k. split; [exact R4|]. rewrite in_app_iff. right. now left. }
    destruct (a_session a).
    - pose proof I2 as I3. destruct I3 as (r & rest & _ & _ & Q & _). eapply (busy_more a (cancel k (a_requests a)) [Down k]); try reflexivity; [exact I2| |].
      + rewrite Q. cbn [cancel]. destruct (match sink_of (rq_query r) with Some s' => s' =? k | None => false end); eexists _, _, _, _; (split; [reflexivity|]); (split; [reflexivity|]); auto.
      + intros act C _. now apply CM.
    - destruct I2 as [Q C]. split; cbn [on_down set_requests log a_requests a_log]; [rewrite Q; reflexivity|]. exact (CM [] [] _ C).
  Qed.
  Lemma query_ok : forall p q xs a a', inv a -> (forall q xs, ~ In (Filed p q xs) (a_log a)) -> on_query p q xs a = Some a' -> inv a'.
  Proof.
    intros p q xs a a' [I1 I2] N H. assert (NF : ~ In p (filed (a_log a))) by (rewrite filed_in; intros (q' & ys & F); exact (N q' ys F)).
    unfold on_query in H. set (b := log [Filed p q xs] a) in *.
    assert (AN : forall act rs, core act rs (a_log a) -> ~ In p (answers (a_log b))).
    { intros act rs C. assert (C' := core_filed act rs _ p q xs C NF). apply (c_open _ _ _ C'). now left. }
    assert (CF : forall act rs, core act rs (a_log a) -> core (p :: act) rs (a_log b)) by (intros; now apply core_filed).
    (* what happens to the requests *)
    assert (SIMPLE : forall t, opens t = [] -> gots t = [] -> msgs t = [] -> (forall act rs, core act rs (a_log a) -> core act rs (a_log a ++ t)) -> inv (log t a)).
    { intros t T1 T2 T3 CT. split; cbn [log a_resumes a_session]; [exact I1|]. destruct (a_session a).
      - pose proof I2 as I3. destruct I3 as (r & rest & _ & _ & Q & _). eapply (busy_more a (a_requests a) t); try reflexivity; try assumption.
        + rewrite Q. eexists _, _, _, _. split; [reflexivity|]. split; [reflexivity|]. auto.
        + intros act C _. now apply CT.
      - destruct I2 as [Q C]. split; [exact Q|]. now apply CT. }
    assert (FIND : q_cmd q = Erase \/ q_cmd q <> Erase) by (destruct (q_cmd q); [right|right|left]; congruence). destruct FIND as [ER|NE].
    - rewrite ER in H. injection H as <-.
      assert (AA : exists act rs, core act rs (a_log a)) by (destruct (a_session a); [destruct I2 as (r & rest & l1 & l2 & _ & _ & _ & _ & [(C & _)|(_ & C & _)])|destruct I2 as [_ C]]; eauto).
      destruct AA as (act0 & rs0 & C0). rewrite deliver_new.
      + replace (log [Answered p true] (log [Erased xs] b)) with (log [Filed p q xs; Erased xs; Answered p true] a) by (unfold b, log; cbn; now rewrite <- !app_assoc).
        apply SIMPLE; try reflexivity. intros act rs C. replace (a_log a ++ [Filed p q xs; Erased xs; Answered p true]) with ((a_log b ++ [Erased xs]) ++ [Answered p true]) by (unfold b, log; cbn; now rewrite <- !app_assoc).
        apply core_answer; [apply core_quiet; [reflexivity|now apply CF]|]. exists q, xs. split; [unfold b; cbn; rewrite !in_app_iff; cbn; auto|]. left. split; [exact ER|]. rewrite !in_app_iff. cbn. auto.
      + cbn [log a_log]. unfold answers. rewrite flat_map_app. cbn. rewrite app_nil_r. exact (AN act0 rs0 C0).
    - assert (H' : file_request p q xs b = Some a') by (destruct (q_cmd q); [exact H|exact H|now contradiction NE]). clear H. unfold file_request in H'. change (a_requests b) with (a_requests a) in H'.
      assert (GO : forall rs, (forall act, core act (a_requests a) (a_log a) -> core act rs (a_log b)) ->
        (forall r rest, a_requests a = r :: rest -> exists r' rest', rs = r' :: rest' /\ rq_query r' = rq_query r /\ rq_cancelled r' = rq_cancelled r) ->
        (if a_session b then Some (set_requests rs b) else let c := next_session (set_requests rs b) in if a_session c then Some (set_resumes (S (a_resumes c)) c) else None) = Some a' -> inv a').
      { intros rs CR FR G. change (a_session b) with (a_session a) in G. destruct (a_session a) eqn:SE.
        - injection G as <-. split; cbn [set_requests b log a_resumes a_session]; rewrite SE; [exact I1|]. pose proof I2 as I3. destruct I3 as (r & rest & _ & _ & Q & _). eapply (busy_more a rs [Filed p q xs]); try reflexivity; [exact I2| |].
          + destruct (FR r rest Q) as (r' & rest' & -> & R1 & R2). rewrite Q. eexists _, _, _, _. split; [reflexivity|]. split; [reflexivity|]. split; [exact R1|congruence].
          + intros act C _. now apply CR.
        - destruct I2 as [Q C]. rewrite Q in CR. pose proof (finish_ok (set_requests rs b) I1 (CR [] C)) as FI. cbn zeta in *. destruct (a_session (next_session (set_requests rs b))); [|discriminate]. injection G as <-. exact FI. }
      destruct (find_request q (a_requests a)) as [r|] eqn:FR.
      + destruct (find_request_in _ _ _ FR) as [IN QE]. destruct (rq_cancelled r) eqn:CC.
        * injection H' as <-.
          assert (AA : exists act, core act (a_requests a) (a_log a)). { destruct (a_session a); [destruct I2 as (r0 & rest & l1 & l2 & _ & _ & _ & _ & [(C & _)|(_ & C & _)]); eauto|destruct I2 as [Q C]; rewrite Q in IN; contradiction]. }
          destruct AA as (act0 & C0). rewrite deliver_new by (exact (AN _ _ C0)). replace (log [Answered p true] b) with (log [Filed p q xs; Answered p true] a) by (unfold b, log; cbn; now rewrite <- !app_assoc).
          apply SIMPLE; try reflexivity. intros act rs C. replace (a_log a ++ [Filed p q xs; Answered p true]) with (a_log b ++ [Answered p true]) by (unfold b, log; cbn; now rewrite <- !app_assoc).
          apply core_answer; [now apply CF|]. exists q, xs. split; [unfold b; cbn; rewrite !in_app_iff; cbn; auto|]. right. exists (rq_query r). split; [right; exact QE|]. left. apply spoiled_app, spoiled_app. exact (c_cancelled _ _ _ C0 r IN CC).
        * apply (GO (queue_up q (xs, p) (a_requests a))); [| |exact H'].
          -- intros act C. pose proof (CF act _ C) as C'. eapply core_move; [exact C'| | | |].
             ++ cbn [app]. eapply Permutation_trans; [|apply Permutation_app_head, Permutation_sym, (queue_up_spec q xs p _ r FR)]. apply Permutation_middle.
             ++ intros p' H. apply (c_act _ _ _ C'). now right.
             ++ intros r' ys p' R1 R2. destruct (queue_up_in _ _ _ _ R1) as (r0 & H1 & H2 & H3 & H4). rewrite H2. destruct H4 as [H4|[H4 H5]]; [rewrite H4 in R2; now apply (c_queue _ _ _ C' r0)|]. rewrite H5 in R2. apply in_app_or in R2 as [R2|[R2|[]]]; [now apply (c_queue _ _ _ C' r0)|].
                injection R2 as <- <-. exists q. split; [unfold b; cbn; rewrite in_app_iff; cbn; auto|right; exact H4].
             ++ intros r' R1 R2. destruct (queue_up_in _ _ _ _ R1) as (r0 & H1 & H2 & H3 & H4). rewrite H2. apply (c_cancelled _ _ _ C' r0 H1). congruence.
          -- intros r0 rest Q. rewrite Q. apply queue_up_front.
      + apply (GO (a_requests a ++ [{| rq_query := q; rq_queue := [(xs, p)]; rq_cancelled := false |}])); [| |exact H'].
        * intros act C. pose proof (CF act _ C) as C'. eapply core_move; [exact C'| | | |].
          -- unfold queued. rewrite flat_map_app. cbn [flat_map map snd rq_queue app]. rewrite app_assoc. eapply Permutation_trans; [apply (Permutation_cons_append (act ++ flat_map (fun r => map snd (rq_queue r)) (a_requests a)))|]. apply Permutation_refl.
          -- intros p' H. apply (c_act _ _ _ C'). now right.
          -- intros r' ys p' R1 R2. apply in_app_or in R1 as [R1|[<-|[]]]; [now apply (c_queue _ _ _ C' r')|]. destruct R2 as [R2|[]]. injection R2 as <- <-. exists q. split; [unfold b; cbn; rewrite in_app_iff; cbn; auto|]. now left.
          -- intros r' R1 R2. apply in_app_or in R1 as [R1|[<-|[]]]; [now apply (c_cancelled _ _ _ C' r')|discriminate].
        * intros r0 rest Q. rewrite Q. cbn [app]. eexists _, _. split; [reflexivity|]. auto.
  Qed.

  Lemma start_inv : inv start.
  Proof. split; [reflexivity|]. split; [reflexivity|]. split; try (intros; contradiction); try constructor. Qed.
  Lemma step_inv : forall i a a', inv a -> enabled i a -> step serve i a = Some a' -> inv a'.
  Proof.
    intros [p q xs|k|g] a a' I E H; cbn [step enabled] in *.
    - eapply query_ok; eassumption.
    - injection H as <-. now apply down_ok.
    - eapply resume_ok; eassumption.
  Qed.
  Theorem reach_inv : forall a, reach serve a -> inv a.
  Proof. induction 1; [apply start_inv|eapply step_inv; eassumption]. Qed.
  Lemma inv_core : forall a, inv a -> exists act, core act (a_requests a) (a_log a).
  Proof. intros a [_ I]. destruct (a_session a); [destruct I as (r & rest & l1 & l2 & _ & _ & _ & _ & [(C & _)|(_ & C & _)]); eauto|destruct I as [Q C]; rewrite Q; eauto]. Qed.

  (** * Assertions *)

  Lemma work_none : forall g a, (exists r rest, a_requests a = r :: rest) -> work serve g a = None -> exists q s, g = GSlice s /\ serve q (a_ids a) s = Crash.
  Proof.
    intros g a (r & rest & Q) W. unfold work in W. rewrite Q in W. cbn [log a_ids a_active] in W. destruct g as [s| |].
    - destruct (serve (rq_query r) (a_ids a) s) eqn:SV; try discriminate. eauto.
    - destruct (a_session _) in W; discriminate.
    - destruct (a_session _) in W; discriminate.
  Qed.
  Lemma step_none : forall i a, inv a -> enabled i a -> step serve i a = None -> exists q xs s, i = IResume (GSlice s) /\ serve q xs s = Crash.
  Proof.
    intros i a [I1 I2] E H. destruct i as [p q xs|k|g]; cbn [step enabled] in *; [exfalso|discriminate|].
    - unfold on_query in H. set (b := log [Filed p q xs] a) in *. assert (H' : file_request p q xs b = None) by (destruct (q_cmd q); [exact H|exact H|discriminate]). clear H. unfold file_request in H'.
      change (a_requests b) with (a_requests a) in H'. change (a_session (set_requests (queue_up q (xs, p) (a_requests a)) b)) with (a_session a) in H'. change (a_session (set_requests (a_requests a ++ [{| rq_query := q; rq_queue := [(xs, p)]; rq_cancelled := false |}]) b)) with (a_session a) in H'.
      destruct (a_session a); [destruct (find_request q (a_requests a)) as [r|]; [destruct (rq_cancelled r)|]; discriminate|]. destruct I2 as [Q C]. rewrite Q in H'. cbn [find_request app] in H'.
      unfold next_session in H'. cbn [set_requests a_requests next_requests rq_cancelled rq_queue] in H'. cbn [a_session] in H'. discriminate.
    - destruct (a_session a) eqn:SE; [|lia]. unfold on_resume in H. cbn [set_resumes a_session a_requests] in H. rewrite SE in H. cbn [negb] in H. set (b := set_resumes (a_resumes a - 1) a) in *. assert (B : busy b) by exact I2.
      destruct (a_requests a) as [|r rest] eqn:Q; [destruct I2 as (r & rest & l1 & l2 & Q' & _); congruence|]. destruct (rq_cancelled r) eqn:CC.
      + destruct (cancelled_ok b B ltac:(exists r, rest; auto)) as [C1 C2]. set (c := deliver (a_active b) true b) in *. destruct (next_session_ok c C1) as (N1 & N2 & _). set (d := next_session c) in *.
        destruct (a_session d) eqn:SD; [|discriminate]. destruct N2 as [N2 (r0 & rest0 & N3 & _)]. destruct (work_none g d ltac:(eauto) H) as (q & s & G & SV). subst g. eauto.
      + destruct (work_none g b ltac:(exists r, rest; exact Q) H) as (q & s & G & SV). subst g. eauto.
  Qed.

  (** * Progress *)

  Definition grows (a a' : archive) : Prop := exists t, a_log a' = a_log a ++ t /\ filed t = [].
  Lemma grows_refl : forall a a', a_log a' = a_log a -> grows a a'.
  Proof. intros a a' H. exists []. rewrite app_nil_r. auto. Qed.
  Lemma grows_trans : forall a b c, grows a b -> grows b c -> grows a c.
  Proof. intros a b c (t & H1 & H2) (u & H3 & H4). exists (t ++ u). rewrite H3, H1, app_assoc. split; [reflexivity|]. unfold filed in *. now rewrite flat_map_app, H2, H4. Qed.
  Lemma grows_deliver : forall p d a, grows a (deliver p d a).
  Proof. intros p d a. unfold deliver. destruct (answered p (a_log a)); [now apply grows_refl|]. exists [Answered p d]. auto. Qed.
  Lemma grows_all : forall ps a, grows a (fold_left (fun a p => deliver p true a) ps a).
  Proof. induction ps as [|p ps IH]; intros a; cbn [fold_left]; [now apply grows_refl|]. eapply grows_trans; [apply grows_deliver|apply IH]. Qed.
  Lemma grows_next : forall a, grows a (next_session a).
  Proof.
    intros a. unfold next_session. destruct (next_requests (a_requests a)) as [[ps rs] o]. destruct (grows_all ps a) as (t & H1 & H2). destruct o as [[[q xs] p]|].
    - exists (t ++ [Opened p q xs]). cbn [set_requests a_log]. rewrite H1, app_assoc. split; [reflexivity|]. unfold filed in *. now rewrite flat_map_app, H2.
    - exists t. auto.
  Qed.
  Lemma grows_answers : forall a a', grows a a' -> length (answers (a_log a)) <= length (answers (a_log a')) /\ filed (a_log a') = filed (a_log a).
  Proof. intros a a' (t & -> & H). unfold answers, filed in *. rewrite !flat_map_app, app_length, H, app_nil_r. split; [lia|reflexivity]. Qed.
  Lemma work_grows : forall g a a', work serve g a = Some a' -> grows a a'.
  Proof.
    intros g a a' H. unfold work in H. destruct (a_requests a) as [|r rest]; [discriminate|].
    assert (L : grows a (log [Got g] a)) by (exists [Got g]; auto).
    assert (F : forall d, (if a_session (next_session (deliver (a_active a) d (log [Got g] a))) then Some (set_resumes (S (a_resumes (next_session (deliver (a_active a) d (log [Got g] a))))) (next_session (deliver (a_active a) d (log [Got g] a)))) else Some (next_session (deliver (a_active a) d (log [Got g] a)))) = Some a' -> grows a a').
    { intros d X. assert (G : grows a (next_session (deliver (a_active a) d (log [Got g] a)))) by (eapply grows_trans; [exact L|eapply grows_trans; [apply grows_deliver|apply grows_next]]). destruct (a_session _) in X; injection X as <-; [|exact G]. eapply grows_trans; [exact G|]. now apply grows_refl. }
    destruct g as [s| |]; [|now apply (F true)|now apply (F false)]. cbn [log a_ids] in H. destruct (serve (rq_query r) (a_ids a) s); [| |discriminate]; injection H as <-.
    - destruct (sink_of (rq_query r)) as [k|]; [exists (Got (GSlice s) :: map (Msg k) ms)|exists [Got (GSlice s)]]; cbn [set_resumes log a_log]; rewrite <- app_assoc; (split; [reflexivity|]); [|reflexivity]. clear. unfold filed. cbn [flat_map app]. induction ms as [|m ms IH]; [reflexivity|exact IH].
    - eapply grows_trans; [|now apply grows_refl]. eapply grows_trans; [exact L|]. eapply grows_trans; [|apply grows_deliver]. exists [Unfit (rq_query r)]. auto.
  Qed.
  Lemma work_end : forall g a a', g = GEnd \/ g = GError -> ~ In (a_active a) (answers (a_log a)) -> work serve g a = Some a' -> S (length (answers (a_log a))) <= length (answers (a_log a')).
  Proof.
    intros g a a' G N H. unfold work in H. destruct (a_requests a) as [|r rest]; [discriminate|].
    assert (F : forall d, (if a_session (next_session (deliver (a_active a) d (log [Got g] a))) then Some (set_resumes (S (a_resumes (next_session (deliver (a_active a) d (log [Got g] a))))) (next_session (deliver (a_active a) d (log [Got g] a)))) else Some (next_session (deliver (a_active a) d (log [Got g] a)))) = Some a' -> S (length (answers (a_log a))) <= length (answers (a_log a'))).
    { intros d X. assert (X' : a_log a' = a_log (next_session (deliver (a_active a) d (log [Got g] a)))) by (destruct (a_session _) in X; injection X as <-; reflexivity). rewrite X'. clear X X'.
      rewrite deliver_new by (cbn [log a_log]; unfold answers in *; rewrite flat_map_app, in_app_iff; destruct G as [->| ->]; cbn; intuition).
      eapply Nat.le_trans; [|apply grows_answers, grows_next]. cbn [log a_log]. unfold answers. rewrite !flat_map_app, !app_length. cbn. lia. }
    destruct G as [->| ->]; [now apply (F true)|now apply (F false)].
  Qed.
  Lemma resume_grows : forall g a a', on_resume serve g a = Some a' -> grows a a'.
  Proof.
    intros g a a' H. unfold on_resume in H. cbn [set_resumes a_session a_requests] in H. set (b := set_resumes (a_resumes a - 1) a) in *. assert (B : grows a b) by now apply grows_refl. destruct (negb (a_session a)); [discriminate|]. destruct (a_requests a) as [|r rest]; [discriminate|].
    destruct (rq_cancelled r); [|eapply grows_trans; [exact B|eapply work_grows; exact H]].
    assert (G : grows a (next_session (deliver (a_active b) true b))) by (eapply grows_trans; [exact B|eapply grows_trans; [apply grows_deliver|apply grows_next]]).
    destruct (a_session (next_session (deliver (a_active b) true b))); [eapply grows_trans; [exact G|eapply work_grows; exact H]|]. injection H as <-. exact G.
  Qed.
  Lemma busy_open : forall a, busy a -> (exists r rest, a_requests a = r :: rest /\ rq_cancelled r = false) -> ~ In (a_active a) (answers (a_log a)).
  Proof. intros a (r & rest & l1 & l2 & Q & _ & _ & _ & X) (r1 & rest1 & Q1 & NC). rewrite Q in Q1. injection Q1 as <- <-. destruct X as [(C & _)|(X & _)]; [|congruence]. apply (c_open _ _ _ C). now left. Qed.
  Lemma resume_end : forall g a a', g = GEnd \/ g = GError -> inv a -> 0 < a_resumes a -> on_resume serve g a = Some a' -> a_resumes a' = 0 \/ S (length (answers (a_log a))) <= length (answers (a_log a')).
  Proof.
    intros g a a' G [I1 I2] E H. destruct (a_session a) eqn:SE; [|lia]. unfold on_resume in H. cbn [set_resumes a_session a_requests] in H. rewrite SE in H. cbn [negb] in H.
    set (b := set_resumes (a_resumes a - 1) a) in *. assert (B : busy b) by exact I2. destruct (a_requests a) as [|r rest] eqn:Q; [discriminate|]. destruct (rq_cancelled r) eqn:CC.
    - destruct (cancelled_ok b B ltac:(exists r, rest; auto)) as [C1 C2]. assert (GR : grows b (next_session (deliver (a_active b) true b))) by (eapply grows_trans; [apply grows_deliver|apply grows_next]). set (c := deliver (a_active b) true b) in *. destruct (next_session_ok c C1) as (N1 & N2 & _). set (d := next_session c) in *. destruct (a_session d) eqn:SD.
      + destruct N2 as [N2 N3]. right. eapply Nat.le_trans; [|eapply work_end; [exact G|exact (busy_open d N2 N3)|exact H]]. apply le_n_S. exact (proj1 (grows_answers _ _ GR)).
      + injection H as <-. left. rewrite N1, C2. cbn. lia.
    - right. exact (work_end g b a' G (busy_open b B ltac:(exists r, rest; auto)) H).
  Qed.
End Proofs.
