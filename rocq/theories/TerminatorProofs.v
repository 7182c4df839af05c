(** Proofs about the terminator. *)
From Coq Require Import List Bool Arith Lia Permutation.
From Verif Require Import TerminatorModel.
Import ListNotations.
Open Scope nat_scope.

Lemma ended_in : forall a l, ended a l = true <-> In (Ended a) l.
Proof.
  intros a l. unfold ended. rewrite existsb_exists. split.
  - intros (e & H & E). destruct e; try discriminate. apply Nat.eqb_eq in E. now subst.
  - intros H. exists (Ended a). split; [exact H|apply Nat.eqb_refl].
Qed.
Lemma ended_not : forall a l, ended a l = false <-> ~ In (Ended a) l.
Proof. intros a l. rewrite <- ended_in. destruct (ended a l); split; congruence. Qed.

(** * What is left of a list *)

Inductive rests (gone : actor -> Prop) : list actor -> list actor -> Prop :=
| rests_nil : rests gone [] []
| rests_keep : forall a xs ys, rests gone xs ys -> rests gone (a :: xs) (a :: ys)
| rests_drop : forall a xs ys, gone a -> rests gone xs ys -> rests gone (a :: xs) ys.
Lemma rests_refl : forall g xs, rests g xs xs.
Proof. induction xs; constructor; assumption. Qed.
Lemma rests_impl : forall (g h : actor -> Prop), (forall a, g a -> h a) -> forall xs ys, rests g xs ys -> rests h xs ys.
Proof. intros g h H xs ys R. induction R; constructor; auto. Qed.
Lemma rests_in : forall g xs ys, rests g xs ys -> forall a, In a ys -> In a xs.
Proof. intros g xs ys R. induction R; intros b HH; [contradiction|destruct HH; [now left|right; auto]|right; auto]. Qed.
Lemma rests_gone : forall g xs ys, rests g xs ys -> forall a, In a xs -> In a ys \/ g a.
Proof. intros g xs ys R. induction R; intros b H'; [contradiction| |]; destruct H' as [->|H']; auto; [left; now left|]. destruct (IHR b H'); [left; now right|now right]. Qed.
Lemma erase_spec : forall a xs, match erase a xs with Some ys => exists l r, xs = l ++ a :: r /\ ys = l ++ r | None => ~ In a xs end.
Proof.
  induction xs as [|x xs IH]; cbn [erase]; [auto|]. destruct (Nat.eqb_spec x a) as [->|N].
  - exists [], xs. auto.
  - destruct (erase a xs) as [ys|]; cbn [option_map].
    + destruct IH as (l & r & -> & ->). exists (x :: l), r. auto.
    + intros [H|H]; auto.
Qed.
Lemma rests_erase : forall (g : actor -> Prop) xs l a r, g a -> rests g xs (l ++ a :: r) -> rests g xs (l ++ r).
Proof.
  intros g xs l a r G R. remember (l ++ a :: r) as ys eqn:E. revert l a r G E. induction R as [|b xs ys R IH|b xs ys H R IH]; intros l a r G E.
  - destruct l; discriminate.
  - destruct l as [|c l]; injection E as -> E.
    + subst. now apply rests_drop.
    + apply rests_keep. eapply IH; eauto.
  - apply rests_drop; [exact H|]. eapply IH; eauto.
Qed.
Lemma rests_app : forall g xs1 xs2 ys, rests g (xs1 ++ xs2) ys -> exists ys1 ys2, ys = ys1 ++ ys2 /\ rests g xs1 ys1 /\ rests g xs2 ys2.
Proof.
  induction xs1 as [|a xs1 IH]; intros xs2 ys R.
  - exists [], ys. repeat split; [constructor|exact R].
  - cbn [app] in R. inversion R as [|? ? ys' R'|? ? ? G R']; subst; destruct (IH _ _ R') as (y1 & y2 & -> & R1 & R2).
    + exists (a :: y1), y2. repeat split; [now constructor|exact R2].
    + exists y1, y2. repeat split; [now constructor|exact R2].
Qed.
Lemma back_some : forall xs, xs <> [] -> exists l a, xs = l ++ [a] /\ back xs = Some a.
Proof. intros xs H. destruct (exists_last H) as (l & a & ->). exists l, a. split; [reflexivity|]. unfold back. now rewrite rev_app_distr. Qed.
(** The last of what is left comes before everything else that is left, in the original order. *)
Lemma rests_back : forall g xs ys a pre post, rests g (rev xs) ys -> back ys = Some a -> xs = pre ++ a :: post -> ~ In a pre -> forall b, In b pre -> g b.
Proof.
  intros g xs ys a pre post R B -> N b H. rewrite rev_app_distr in R. cbn [rev] in R. rewrite <- app_assoc in R. destruct (rests_app _ _ _ _ R) as (y1 & y2 & -> & _ & R2). cbn [app] in R2.
  assert (R3 : exists y3 y4, y2 = y3 ++ y4 /\ rests g (rev pre) y4) by (inversion R2; subst; [exists [a]|exists []]; eexists; (split; [reflexivity|assumption])). destruct R3 as (y3 & y4 & -> & R4).
  destruct (rests_gone _ _ _ R4 b) as [I|I]; [now apply in_rev in H|exfalso|exact I].
  assert (NE : y4 <> []) by (destruct y4; [contradiction|discriminate]). destruct (exists_last NE) as (l & c & ->). rewrite !app_assoc in B. unfold back in B. rewrite rev_app_distr in B. injection B as ->.
  apply N. apply in_rev. eapply rests_in; [exact R4|]. rewrite in_app_iff. right. now left.
Qed.

(** * Reading the log *)

Definition answers (l : list event) : list event := flat_map (fun e => match e with Done | Failed _ => [e] | _ => [] end) l.
Definition told (a : actor) (l : list event) : Prop := In (Exit a) l \/ In (Kill a) l.
Definition gone (l : list event) (a : actor) : Prop := In (Ended a) l /\ told a l.
(** Before an event of a kind. *)
Definition before {A} (f : A -> event) (P : A -> list event -> Prop) (l : list event) : Prop := forall l1 x l2, l = l1 ++ f x :: l2 -> P x l1.
Lemma before_app : forall {A} (f : A -> event) P l t, before f P l -> (forall t1 x t2, t = t1 ++ f x :: t2 -> P x (l ++ t1)) -> before f P (l ++ t).
Proof.
  intros A f P l t H H' l1 x l2 E.
  assert (C : (exists l2', l = l1 ++ f x :: l2') \/ exists t1, l1 = l ++ t1 /\ t = t1 ++ f x :: l2).
  { revert l1 E. clear. induction l as [|e l IH]; intros l1 E; [right; exists l1; auto|]. destruct l1 as [|e' l1]; cbn [app] in E; injection E as -> E.
    - left. now exists l.
    - destruct (IH l1 E) as [(l2' & ->)|(t1 & -> & ->)]; [left; now exists l2'|right; now exists t1]. }
  destruct C as [(l2' & ->)|(t1 & -> & ->)]; [eapply H; reflexivity|eapply H'; reflexivity].
Qed.

Section Proofs.
  Variable p : policy.
  Variable grace : bool.
  Variable xs : list (option actor).
  Let goal := present xs.
  Record logged (l : list event) : Prop := {
    l_done : before (fun _ : unit => Done) (fun _ l1 => forall a, In a goal -> gone l1 a) l;
    l_failed : before Failed (fun _ l1 => forall a, In a goal -> gone l1 a \/ In (Kill a) l1) l;
    l_order : p = Sequential -> before Exit (fun a l1 => forall pre post, goal = pre ++ a :: post -> ~ In a pre -> forall b, In b pre -> In (Ended b) l1) l;
    l_only : forall a, told a l -> In a goal
  }.
  Record inv (t : state) : Prop := {
    i_log : logged (t_log t);
    i_alive : forall a, In a (t_monitors t) -> ~ In (Ended a) (t_log t);
    i_dead : forall a, In a (t_downs t) -> In (Ended a) (t_log t);
    i_state : if t_requested t
              then rests (gone (t_log t)) (rev goal) (t_remaining t) /\ length (answers (t_log t)) = (if t_quit t then 1 else 0) /\ (t_quit t = false -> t_remaining t <> []) /\
                   (p = Parallel -> forall a, In a goal -> In (Exit a) (t_log t)) /\ (t_last t = true -> t_killing t = true) /\
                   (t_killing t = true -> forall a, In a (t_remaining t) -> In (Kill a) (t_log t)) /\
                   (t_quit t = false -> if t_killing t then exists extra, Permutation (t_monitors t ++ t_downs t) (t_remaining t ++ extra)
                    else match p with
                         | Parallel => Permutation (t_monitors t ++ t_downs t) (t_remaining t)
                         | Sequential => exists a, back (t_remaining t) = Some a /\ t_monitors t ++ t_downs t = [a] /\ In (Exit a) (t_log t)
                         end)
              else t_remaining t = [] /\ t_monitors t = [] /\ t_downs t = [] /\ t_quit t = false /\ t_killing t = false /\ t_reminder t = false /\ t_last t = false /\ answers (t_log t) = [] /\ (forall a, ~ told a (t_log t))
  }.
  Lemma told_app : forall a l t, told a l -> told a (l ++ t).
  Proof. intros a l t [H|H]; [left|right]; rewrite in_app_iff; auto. Qed.
  Lemma gone_app : forall l t a, gone l a -> gone (l ++ t) a.
  Proof. intros l t a [H1 H2]. split; [rewrite in_app_iff; auto|now apply told_app]. Qed.
  Lemma answers_app : forall l t, answers (l ++ t) = answers l ++ answers t.
  Proof. intros. apply flat_map_app. Qed.

  Lemma logged_end : forall l a, logged l -> logged (l ++ [Ended a]).
  Proof.
    intros l a [L1 L2 L3 L4]. split.
    - apply before_app; [exact L1|]. intros [|e t1] x t2 E; [discriminate|]. injection E as _ E. destruct t1; discriminate.
    - apply before_app; [exact L2|]. intros [|e t1] x t2 E; [discriminate|]. injection E as _ E. destruct t1; discriminate.
    - intros S. apply before_app; [exact (L3 S)|]. intros [|e t1] x t2 E; [discriminate|]. injection E as _ E. destruct t1; discriminate.
    - intros b [H|H]; apply in_app_or in H as [H|[H|[]]]; try discriminate; apply L4; [now left|now right].
  Qed.
  Lemma logged_exit : forall l a, logged l -> In a goal -> (p = Sequential -> forall pre post, goal = pre ++ a :: post -> ~ In a pre -> forall b, In b pre -> In (Ended b) l) -> logged (l ++ [Exit a]).
  Proof.
    intros l a [L1 L2 L3 L4] G O. split.
    - apply before_app; [exact L1|]. intros [|e t1] x t2 E; [discriminate|]. injection E as _ E. destruct t1; discriminate.
    - apply before_app; [exact L2|]. intros [|e t1] x t2 E; [discriminate|]. injection E as _ E. destruct t1; discriminate.
    - intros S. apply before_app; [exact (L3 S)|]. intros [|e t1] x t2 E; [injection E as <- _; rewrite app_nil_r; now apply O|]. injection E as _ E. destruct t1; discriminate.
    - intros b [H|H]; apply in_app_or in H as [H|[H|[]]]; try discriminate; try (apply L4; [now left|now right]); try (apply L4; now left); try (apply L4; now right). injection H as <-. exact G.
  Qed.
  Lemma logged_kill : forall l a, logged l -> In a goal -> logged (l ++ [Kill a]).
  Proof.
    intros l a [L1 L2 L3 L4] G. split.
    - apply before_app; [exact L1|]. intros [|e t1] x t2 E; [discriminate|]. injection E as _ E. destruct t1; discriminate.
    - apply before_app; [exact L2|]. intros [|e t1] x t2 E; [discriminate|]. injection E as _ E. destruct t1; discriminate.
    - intros S. apply before_app; [exact (L3 S)|]. intros [|e t1] x t2 E; [discriminate|]. injection E as _ E. destruct t1; discriminate.
    - intros b [H|H]; apply in_app_or in H as [H|[H|[]]]; try discriminate; try (apply L4; now left); try (apply L4; now right). injection H as <-. exact G.
  Qed.
  Lemma logged_done : forall l, logged l -> (forall a, In a goal -> gone l a) -> logged (l ++ [Done]).
  Proof.
    intros l [L1 L2 L3 L4] G. split.
    - apply before_app; [exact L1|]. intros [|e t1] x t2 E; [rewrite app_nil_r; exact G|]. injection E as _ E. destruct t1; discriminate.
    - apply before_app; [exact L2|]. intros [|e t1] x t2 E; [discriminate|]. injection E as _ E. destruct t1; discriminate.
    - intros S. apply before_app; [exact (L3 S)|]. intros [|e t1] x t2 E; [discriminate|]. injection E as _ E. destruct t1; discriminate.
    - intros b [H|H]; apply in_app_or in H as [H|[H|[]]]; try discriminate; apply L4; [now left|now right].
  Qed.
  Lemma logged_failed : forall l n, logged l -> (forall a, In a goal -> gone l a \/ In (Kill a) l) -> logged (l ++ [Failed n]).
  Proof.
    intros l n [L1 L2 L3 L4] G. split.
    - apply before_app; [exact L1|]. intros [|e t1] x t2 E; [discriminate|]. injection E as _ E. destruct t1; discriminate.
    - apply before_app; [exact L2|]. intros [|e t1] x t2 E; [rewrite app_nil_r; exact G|]. injection E as _ E. destruct t1; discriminate.
    - intros S. apply before_app; [exact (L3 S)|]. intros [|e t1] x t2 E; [discriminate|]. injection E as _ E. destruct t1; discriminate.
    - intros b [H|H]; apply in_app_or in H as [H|[H|[]]]; try discriminate; apply L4; [now left|now right].
  Qed.

  Lemma init_inv : inv init.
  Proof.
    split; try (intros; contradiction).
    - split; try (intros [] []; contradiction); try (intros ? [] ? E; discriminate); try (intros [|? ?] ? ? E; discriminate); try (intros S [|? ?] ? ? E; discriminate); try (intros a [[]|[]]).
    - cbn. repeat split. intros a [[]|[]].
  Qed.

  (** * Telling actors to exit *)

  Definition say (k : bool) (a : actor) : event := if k then Kill a else Exit a.
  Lemma say_ended : forall k a b l, In (Ended b) (l ++ [say k a]) <-> In (Ended b) l.
  Proof. intros k a b l. rewrite in_app_iff. split; [|auto]. intros [H|[H|[]]]; [exact H|]. destruct k; discriminate. Qed.
  Lemma fold_tell : forall k ys t, (forall a, In a (t_monitors t) -> ~ In (Ended a) (t_log t)) -> (forall a, In a (t_downs t) -> In (Ended a) (t_log t)) ->
    let t' := fold_left (fun t a => tell k a t) ys t in
    t_requested t' = t_requested t /\ t_quit t' = t_quit t /\ t_killing t' = t_killing t /\ t_remaining t' = t_remaining t /\ t_last t' = t_last t /\
    t_log t' = t_log t ++ map (say k) ys /\ Permutation (t_monitors t' ++ t_downs t') (ys ++ t_monitors t ++ t_downs t) /\
    (forall a, In a (t_monitors t') -> ~ In (Ended a) (t_log t')) /\ (forall a, In a (t_downs t') -> In (Ended a) (t_log t')).
  Proof.
    intros k. induction ys as [|y ys IH]; intros t A D; cbn [fold_left map].
    - rewrite app_nil_r. cbn [app]. repeat split; auto.
    - assert (A' : forall a, In a (t_monitors (tell k y t)) -> ~ In (Ended a) (t_log (tell k y t))).
      { intros a H. cbn [tell log t_monitors t_log monitor] in *. fold (say k y). rewrite say_ended. destruct (ended y (t_log t)) eqn:E; [auto|]. destruct H as [<-|H]; [now apply ended_not|auto]. }
      assert (D' : forall a, In a (t_downs (tell k y t)) -> In (Ended a) (t_log (tell k y t))).
      { intros a H. cbn [tell log t_downs t_log monitor] in *. fold (say k y). rewrite say_ended. destruct (ended y (t_log t)) eqn:E; [|auto]. destruct H as [<-|H]; [now apply ended_in|auto]. }
      destruct (IH (tell k y t) A' D') as (H1 & H2 & H3 & H4 & H5 & H6 & H7 & H8 & H9). cbn zeta. rewrite H1, H2, H3, H4, H5. repeat split; try assumption.
      + rewrite H6. cbn [tell log t_log monitor]. fold (say k y). now rewrite <- app_assoc.
      + eapply Permutation_trans; [exact H7|]. cbn [app]. eapply Permutation_trans; [|apply Permutation_sym, Permutation_middle]. apply Permutation_app_head. cbn [tell log t_monitors t_downs monitor].
        destruct (ended y (t_log t)); [apply Permutation_sym, Permutation_middle|apply Permutation_refl].
  Qed.
  Lemma fold_kill : forall ys t, let t' := fold_left (fun t a => log [Kill a] t) ys t in
    t_requested t' = t_requested t /\ t_quit t' = t_quit t /\ t_killing t' = t_killing t /\ t_remaining t' = t_remaining t /\ t_last t' = t_last t /\
    t_log t' = t_log t ++ map (say true) ys /\ t_monitors t' = t_monitors t /\ t_downs t' = t_downs t.
  Proof.
    induction ys as [|y ys IH]; intros t; cbn [fold_left map].
    - rewrite app_nil_r. repeat split.
    - destruct (IH (log [Kill y] t)) as (H1 & H2 & H3 & H4 & H5 & H6 & H7 & H8). cbn zeta. rewrite H1, H2, H3, H4, H5, H6, H7, H8. cbn [log t_log]. rewrite <- app_assoc. repeat split.
  Qed.
  Lemma in_say_ended : forall k ys b l, In (Ended b) (l ++ map (say k) ys) <-> In (Ended b) l.
  Proof. intros k ys b l. rewrite in_app_iff. split; [|auto]. intros [H|H]; [exact H|]. apply in_map_iff in H as (a & H & _). destruct k; discriminate. Qed.
  Lemma answers_say : forall k ys l, answers (l ++ map (say k) ys) = answers l.
  Proof. intros k ys l. rewrite answers_app. replace (answers (map (say k) ys)) with (@nil event); [apply app_nil_r|]. induction ys as [|y ys IH]; [reflexivity|]. destruct k; exact IH. Qed.
  Lemma logged_says : forall k ys l, logged l -> (k = false -> p = Sequential -> ys = []) -> (forall a, In a ys -> In a goal) -> logged (l ++ map (say k) ys).
  Proof.
    intros k. induction ys as [|y ys IH]; intros l L S G; cbn [map]; [now rewrite app_nil_r|]. replace (l ++ say k y :: map (say k) ys) with ((l ++ [say k y]) ++ map (say k) ys) by (rewrite <- app_assoc; reflexivity).
    apply IH; [|intros K P; specialize (S K P); discriminate|intros a H; apply G; now right]. destruct k; [apply logged_kill; [exact L|apply G; now left]|]. apply logged_exit; [exact L|apply G; now left|]. intros P. specialize (S eq_refl P). discriminate.
  Qed.

  (** * The handlers *)

  Lemma end_ok : forall a t, inv t -> ended a (t_log t) = false -> inv (on_end a t).
  Proof.
    intros a t [L A D S] E. apply ended_not in E.
    assert (PM : Permutation (filter (fun b => negb (b =? a)) (t_monitors t) ++ filter (fun b => b =? a) (t_monitors t) ++ t_downs t) (t_monitors t ++ t_downs t)).
    { rewrite app_assoc. apply Permutation_app_tail. clear. induction (t_monitors t) as [|m ms IH]; [constructor|]. cbn [filter]. destruct (m =? a); cbn [negb app]; [eapply Permutation_trans; [apply Permutation_sym, Permutation_middle|]|]; now constructor. }
    split; cbn [on_end t_log t_monitors t_downs t_requested t_quit t_killing t_remaining t_reminder t_last].
    - now apply logged_end.
    - intros b H. apply filter_In in H as [H1 H2]. rewrite in_app_iff. intros [H|[H|[]]]; [now apply (A b)|]. injection H as ->. rewrite Nat.eqb_refl in H2. discriminate.
    - intros b H. rewrite in_app_iff. apply in_app_or in H as [H|H]; [|auto]. apply filter_In in H as [_ H]. apply Nat.eqb_eq in H. subst. right. now left.
    - destruct (t_requested t).
      + destruct S as (S1 & S2 & S3 & S4 & S5 & S6 & S7). split; [eapply rests_impl; [|exact S1]; intros; now apply gone_app|]. split; [rewrite answers_app; cbn; rewrite app_nil_r; exact S2|]. split; [exact S3|]. split; [intros P b H; rewrite in_app_iff; left; now apply S4|]. split; [exact S5|].
        split; [intros K b H; rewrite in_app_iff; left; now apply S6|]. intros Q. specialize (S7 Q). destruct (t_killing t).
        * destruct S7 as (extra & S7). exists extra. eapply Permutation_trans; eassumption.
        * destruct p; [|eapply Permutation_trans; eassumption]. destruct S7 as (b & B1 & B2 & B3). exists b. split; [exact B1|]. rewrite B2 in PM. split; [|rewrite in_app_iff; auto]. apply Permutation_sym in PM. now apply Permutation_length_1_inv in PM.
      + destruct S as (S1 & S2 & S3 & S4 & S5 & S6 & S7 & S8 & S9). rewrite S2, S3. cbn [filter app]. repeat split; try assumption; [rewrite answers_app, S8; reflexivity|]. intros b [H|H]; apply in_app_or in H as [H|[H|[]]]; try discriminate; apply (S9 b); [now left|now right].
  Qed.
  Lemma last_ok : forall t, inv t -> t_quit t = false -> t_last t = true -> inv (on_last t).
  Proof.
    intros t [L A D S] Q K. unfold on_last. destruct (t_requested t) eqn:R; [|destruct S as (S1 & S2 & S3 & S4 & S5 & S6 & S7 & S8 & S9); congruence]. destruct S as (S1 & S2 & S3 & S4 & S5 & S6 & S7). specialize (S6 (S5 K)).
    split; cbn [finish t_log t_monitors t_downs t_requested t_quit t_killing t_remaining t_reminder t_last].
    - apply logged_failed; [exact L|]. intros a G. apply in_rev in G. destruct (rests_gone _ _ _ S1 a G); auto.
    - intros a H. rewrite in_app_iff. intros [X|[X|[]]]; [now apply (A a)|discriminate].
    - intros a H. rewrite in_app_iff. auto.
    - rewrite R. split; [eapply rests_impl; [|exact S1]; intros; now apply gone_app|]. split; [rewrite answers_app, app_length, S2, Q; reflexivity|]. split; [discriminate|]. split; [intros P b H; rewrite in_app_iff; left; now apply S4|]. split; [exact S5|]. split; [intros _ b H; rewrite in_app_iff; left; now apply S6|discriminate].
  Qed.
  Lemma reminder_ok : forall t t', inv t -> t_quit t = false -> t_reminder t = true -> on_reminder p t = Some t' -> inv t'.
  Proof.
    intros t t' [L A D S] Q K H. unfold on_reminder in H. destruct (t_requested t) eqn:R; [|destruct S as (S1 & S2 & S3 & S4 & S5 & S6 & S7 & S8 & S9); congruence]. destruct S as (S1 & S2 & S3 & S4 & S5 & S6 & S7). specialize (S7 Q).
    destruct (t_remaining t) as [|x0 r0] eqn:RE; [discriminate|]. rewrite <- RE in *. set (u := fold_left (fun t a => match p with Sequential => tell true a t | Parallel => log [Kill a] t end) (t_remaining t) t) in *.
    assert (U : t_requested u = t_requested t /\ t_quit u = t_quit t /\ t_remaining u = t_remaining t /\ t_log u = t_log t ++ map (say true) (t_remaining t) /\
      (exists extra, Permutation (t_monitors u ++ t_downs u) (t_remaining t ++ extra)) /\ (forall a, In a (t_monitors u) -> ~ In (Ended a) (t_log u)) /\ (forall a, In a (t_downs u) -> In (Ended a) (t_log u))).
    { unfold u. destruct p.
      - destruct (fold_tell true (t_remaining t) t A D) as (H1 & H2 & H3 & H4 & H5 & H6 & H7 & H8 & H9). repeat split; try assumption. eexists. exact H7.
      - destruct (fold_kill (t_remaining t) t) as (H1 & H2 & H3 & H4 & H5 & H6 & H7 & H8). rewrite H7, H8. repeat split; try assumption.
        + destruct (t_killing t); [exact S7|]. exists []. now rewrite app_nil_r.
        + intros a X. rewrite H6, in_say_ended. auto.
        + intros a X. rewrite H6, in_say_ended. auto. }
    destruct U as (U1 & U2 & U3 & U4 & U5 & U6 & U7). injection H as <-. split; cbn [start_killing t_log t_monitors t_downs t_requested t_quit t_killing t_remaining t_reminder t_last]; try assumption.
    - rewrite U4. apply logged_says; [exact L|discriminate|]. intros a X. apply in_rev. eapply rests_in; [exact S1|exact X].
    - rewrite U1, U2, U3, R, Q. split; [rewrite U4; eapply rests_impl; [|exact S1]; intros; now apply gone_app|]. split; [rewrite U4, answers_say, S2, Q; reflexivity|]. split; [intros _; exact (S3 Q)|]. split; [intros P b X; rewrite U4, in_app_iff; left; now apply S4|]. split; [reflexivity|]. split; [|intros _; exact U5].
      intros _ a X. rewrite U4, in_app_iff. right. apply in_map_iff. exists a. auto.
  Qed.
  Lemma tell_next_ok : forall t, p = Sequential -> logged (t_log t) -> rests (gone (t_log t)) (rev goal) (t_remaining t) -> t_remaining t <> [] -> t_monitors t = [] -> t_downs t = [] ->
    let t' := tell_next t in t_requested t' = t_requested t /\ t_quit t' = t_quit t /\ t_killing t' = t_killing t /\ t_remaining t' = t_remaining t /\ t_last t' = t_last t /\
    logged (t_log t') /\ (exists a, back (t_remaining t) = Some a /\ t_monitors t' ++ t_downs t' = [a] /\ t_log t' = t_log t ++ [Exit a]) /\
    (forall a, In a (t_monitors t') -> ~ In (Ended a) (t_log t')) /\ (forall a, In a (t_downs t') -> In (Ended a) (t_log t')).
  Proof.
    intros t P L R N M D. destruct (back_some _ N) as (l & a & E & B). unfold tell_next. rewrite B. cbn [tell log monitor t_log t_monitors t_downs t_requested t_quit t_killing t_remaining t_reminder t_last]. rewrite M, D. do 5 (split; [reflexivity|]). split; [|split; [|split]].
    - apply logged_exit; [exact L|apply in_rev; eapply rests_in; [exact R|rewrite E, in_app_iff; right; now left]|]. intros _ pre post G NP b H. exact (proj1 (rests_back _ _ _ _ _ _ R B G NP b H)).
    - exists a. repeat split. destruct (ended a (t_log t)); reflexivity.
    - intros b H. change (Exit a) with (say false a). rewrite say_ended. destruct (ended a (t_log t)) eqn:EN; [contradiction|]. destruct H as [<-|[]]. now apply ended_not.
    - intros b H. change (Exit a) with (say false a). rewrite say_ended. destruct (ended a (t_log t)) eqn:EN; [|contradiction]. destruct H as [<-|[]]. now apply ended_in.
  Qed.
  Lemma request_ok : forall t t', inv t -> t_quit t = false -> t_requested t = false -> on_request p grace xs t = Some t' -> inv t'.
  Proof.
    intros t t' [L A D S] Q R H. unfold on_request in H. rewrite R in *. destruct S as (S1 & S2 & S3 & S4 & S5 & S6 & S7 & S8 & S9). fold goal in H.
    cbn [t_remaining t_quit t_killing t_monitors t_downs t_reminder t_last t_log] in H. rewrite Q, S2, S3, S5, S6, S7 in H.
    remember {| t_requested := true; t_quit := false; t_killing := false; t_remaining := rev goal; t_monitors := []; t_downs := []; t_reminder := false; t_last := false; t_log := t_log t |} as u eqn:UE.
    assert (U : t_requested u = true /\ t_quit u = false /\ t_killing u = false /\ t_remaining u = rev goal /\ t_monitors u = [] /\ t_downs u = [] /\ t_last u = false /\ t_log u = t_log t) by (rewrite UE; repeat split). destruct U as (U1 & U2 & U3 & U4 & U5 & U6 & U7 & U8). clear UE.
    destruct (rev goal) as [|x r] eqn:RG.
    - injection H as <-. assert (G : goal = []) by (rewrite <- (rev_involutive goal), RG; reflexivity). split; cbn [finish t_log t_monitors t_downs t_requested t_quit t_killing t_remaining t_reminder t_last]; rewrite ?U1, ?U2, ?U3, ?U4, ?U5, ?U6, ?U7, ?U8; try (intros; contradiction).
      + apply logged_done; [exact L|]. rewrite G. intros a [].
      + rewrite RG, G. repeat split; try discriminate; try (intros; contradiction); [constructor|]. rewrite answers_app, S8. reflexivity.
    - rewrite <- RG in U4. assert (NG : t_remaining u <> []) by (rewrite U4, RG; discriminate). injection H as <-. rewrite <- U8 in L, S8. destruct p eqn:PP.
      + destruct (tell_next_ok u) as (H1 & H2 & H3 & H4 & H5 & H6 & (a & B1 & B2 & B3) & H8 & H9); try assumption; [rewrite U4; apply rests_refl|].
        split; cbn [set_reminder t_log t_monitors t_downs t_requested t_quit t_killing t_remaining t_reminder t_last]; try assumption.
        rewrite H1, H2, H3, H4, H5, U1, U2, U3, U4, U7. split; [apply rests_refl|]. split; [rewrite B3, answers_app, S8; reflexivity|]. split; [intros _; rewrite RG; discriminate|]. split; [intros X; congruence|]. split; [discriminate|]. split; [discriminate|]. intros _. rewrite PP. exists a. rewrite <- U4. repeat split; try assumption. rewrite B3, in_app_iff. right. now left.
      + destruct (fold_tell false goal u) as (H1 & H2 & H3 & H4 & H5 & H6 & H7 & H8 & H9); [rewrite U5; intros ? []|rewrite U6; intros ? []|].
        split; cbn [set_reminder t_log t_monitors t_downs t_requested t_quit t_killing t_remaining t_reminder t_last]; try assumption.
        * rewrite H6. apply logged_says; [exact L|congruence|auto].
        * rewrite H1, H2, H3, H4, H5, U1, U2, U3, U4, U7. split; [apply rests_refl|]. split; [rewrite H6, answers_say, S8; reflexivity|]. split; [intros _; rewrite RG; discriminate|]. split; [intros _ a X; rewrite H6, in_app_iff; right; apply in_map_iff; exists a; auto|]. split; [discriminate|]. split; [discriminate|]. intros _. rewrite PP.
          eapply Permutation_trans; [exact H7|]. rewrite U5, U6, !app_nil_r. apply Permutation_rev.
  Qed.
  Lemma perm_down : forall ms l a r l' r' (extra : list actor), Permutation (ms ++ l ++ a :: r) ((l' ++ a :: r') ++ extra) -> Permutation (ms ++ l ++ r) ((l' ++ r') ++ extra).
  Proof.
    intros ms l a r l' r' extra H. apply (Permutation_cons_inv (a := a)). eapply Permutation_trans; [|eapply Permutation_trans; [exact H|]].
    - rewrite !app_assoc. apply Permutation_middle.
    - rewrite <- !app_assoc. cbn [app]. apply Permutation_sym, Permutation_middle.
  Qed.
  Lemma down_ok : forall a t t', inv t -> t_quit t = false -> In a (t_downs t) -> on_down p a t = Some t' -> inv t'.
  Proof.
    intros a t t' [L A D S] Q I H. destruct (t_requested t) eqn:R; [|destruct S as (_ & _ & S3 & _); rewrite S3 in I; contradiction]. destruct S as (S1 & S2 & S3 & S4 & S5 & S6 & S7). specialize (S7 Q). specialize (S3 Q).
    unfold on_down in H. pose proof (erase_spec a (t_downs t)) as E1. destruct (erase a (t_downs t)) as [ds|]; [|discriminate]. destruct E1 as (l & r & E1 & ->). cbn [drop_down t_remaining t_killing] in H.
    assert (DD : forall b, In b (l ++ r) -> In (Ended b) (t_log t)) by (intros b X; apply D; rewrite E1; apply in_app_or in X; rewrite in_app_iff; cbn [In]; tauto).
    pose proof (erase_spec a (t_remaining t)) as E2. destruct (erase a (t_remaining t)) as [ys|].
    - destruct E2 as (l' & r' & E2 & E3).
      assert (G : gone (t_log t) a).
      { split; [now apply D|]. destruct (t_killing t); [right; apply S6; [reflexivity|rewrite E2, in_app_iff; right; now left]|]. destruct p.
        - destruct S7 as (b & B1 & B2 & B3). left. replace a with b; [exact B3|]. assert (X : In a (t_monitors t ++ t_downs t)) by (rewrite in_app_iff; auto). rewrite B2 in X. destruct X as [X|[]]; exact X.
        - left. apply S4; [reflexivity|]. apply in_rev. eapply rests_in; [exact S1|]. rewrite E2, in_app_iff. right. now left. }
      assert (RS : rests (gone (t_log t)) (rev goal) ys) by (rewrite E3; eapply rests_erase; [exact G|]; rewrite <- E2; exact S1).
      destruct ys as [|y0 ys0].
      + injection H as <-. split; cbn [finish set_remaining drop_down t_log t_monitors t_downs t_requested t_quit t_killing t_remaining t_reminder t_last].
        * apply logged_done; [exact L|]. intros b X. apply in_rev in X. destruct (rests_gone _ _ _ RS b X) as [[]|X']. exact X'.
        * intros b X. rewrite in_app_iff. intros [Y|[Y|[]]]; [now apply (A b)|discriminate].
        * intros b X. rewrite in_app_iff. auto.
        * rewrite R. split; [eapply rests_impl; [|exact RS]; intros; now apply gone_app|]. split; [rewrite answers_app, app_length, S2, Q; reflexivity|]. split; [discriminate|]. split; [intros P b X; rewrite in_app_iff; left; now apply S4|]. split; [exact S5|]. split; [intros _ b []|discriminate].
      + set (ys := y0 :: ys0) in *. assert (NY : ys <> []) by discriminate. clearbody ys. 
        set (u := set_remaining ys (drop_down (l ++ r) t)) in *.
        assert (SK : inv u -> t_killing t = true \/ p = Parallel -> inv t').
        { intros V [K|K].
          - destruct ys as [|y1 ys1]; [contradiction|]. cbn [u set_remaining drop_down t_killing] in H. rewrite K in H. injection H as <-. exact V.
          - destruct ys as [|y1 ys1]; [contradiction|]. rewrite K in H. cbn [u set_remaining drop_down t_killing] in H. destruct (t_killing t); injection H as <-; exact V. }
        assert (IK : forall b, In b ys -> In b (t_remaining t)) by (intros b X; rewrite E2; rewrite E3 in X; apply in_app_or in X; rewrite in_app_iff; cbn [In]; tauto).
        assert (BASE : (t_killing t = true \/ p = Parallel) -> inv u).
        { intros KP. split; cbn [u set_remaining drop_down t_log t_monitors t_downs t_requested t_quit t_killing t_remaining t_reminder t_last]; try assumption.
          rewrite R. split; [exact RS|]. split; [exact S2|]. split; [intros _; exact NY|]. split; [exact S4|]. split; [exact S5|]. split; [intros K b X; apply S6; auto|]. intros _. rewrite E1, E2 in S7. destruct (t_killing t) eqn:K.
          - destruct S7 as (extra & S7). exists extra. rewrite E3. eapply perm_down. exact S7.
          - destruct KP as [KP|KP]; [discriminate|]. rewrite KP in S7 |- *. rewrite E3, <- (app_nil_r (l' ++ r')). eapply perm_down. rewrite app_nil_r. exact S7. }
        destruct (t_killing t) eqn:K; [apply SK; [apply BASE|]; now left|]. destruct p eqn:PP; [|apply SK; [apply BASE|]; now right].
        destruct ys as [|y1 ys1] eqn:YE; [contradiction|]. rewrite <- YE in *. cbn [u set_remaining drop_down t_killing] in H. rewrite K in H. injection H as <-. fold u.
        destruct S7 as (b & B1 & B2 & B3). rewrite E1 in B2.
        assert (ML : t_monitors t = [] /\ l = [] /\ r = []).
        { destruct (t_monitors t) as [|m ms]; cbn [app] in B2; [|injection B2 as _ B2; destruct ms, l; discriminate]. destruct l as [|l0 ls]; cbn [app] in B2; [|injection B2 as _ B2; destruct ls; discriminate]. destruct r; [auto|discriminate]. }
        destruct ML as (M1 & -> & ->).
        destruct (tell_next_ok u) as (H1 & H2 & H3 & H4 & H5 & H6 & (c & C1 & C2 & C3) & H8 & H9); try assumption; try reflexivity; try (cbn [u set_remaining drop_down t_log t_remaining]; rewrite <- ?YE; assumption).
        split; try assumption. rewrite H1, H2, H3, H4, H5. cbn [u set_remaining drop_down t_log t_monitors t_downs t_requested t_quit t_killing t_remaining t_reminder t_last]. rewrite R, Q, K, C3, <- YE. cbn [u set_remaining drop_down t_log].
        split; [eapply rests_impl; [|exact RS]; intros; now apply gone_app|]. split; [rewrite answers_app, app_length, S2, Q; reflexivity|]. split; [intros _; exact NY|]. split; [intros X; congruence|]. split; [intros X; apply S5 in X; congruence|]. split; [discriminate|]. intros _. rewrite PP. exists c. repeat split; [rewrite YE; exact C1|exact C2|]. rewrite in_app_iff. right. now left.
    - destruct (t_killing t) eqn:K; [|discriminate]. injection H as <-. split; cbn [drop_down t_log t_monitors t_downs t_requested t_quit t_killing t_remaining t_reminder t_last]; try assumption. rewrite R, K. split; [exact S1|]. split; [exact S2|]. split; [intros _; exact S3|]. split; [exact S4|]. split; [reflexivity|]. split; [exact S6|]. intros _.
      destruct S7 as (extra & S7). assert (X : In a extra). { assert (Y : In a (t_remaining t ++ extra)) by (eapply Permutation_in; [exact S7|rewrite in_app_iff; auto]). apply in_app_or in Y as [Y|Y]; [contradiction|exact Y]. }
      apply in_split in X as (e1 & e2 & ->). exists (e1 ++ e2). rewrite E1 in S7. apply (Permutation_cons_inv (a := a)). eapply Permutation_trans; [|eapply Permutation_trans; [exact S7|]].
      + rewrite !app_assoc. apply Permutation_middle.
      + rewrite !app_assoc. apply Permutation_sym, Permutation_middle.
  Qed.

  Theorem reach_inv : forall t, reach p grace xs t -> inv t.
  Proof.
    induction 1 as [|t i t' H IH E X S]; [apply init_inv|]. destruct i as [ys|a| | |a]; cbn [enabled step] in *.
    - destruct E as [E1 E2]. rewrite (X ys eq_refl) in S. eapply request_ok; eassumption.
    - destruct E. eapply down_ok; eassumption.
    - destruct E. eapply reminder_ok; eassumption.
    - destruct E. injection S as <-. now apply last_ok.
    - injection S as <-. now apply end_ok.
  Qed.
  Lemma step_some : forall i t, inv t -> enabled i t -> exists t', step p grace i t = Some t'.
  Proof.
    intros i t [L A D S] E. destruct i as [ys|a| | |a]; cbn [enabled step] in *; try (eexists; reflexivity).
    - destruct E as [E1 E2]. unfold on_request. rewrite E2. cbn [t_remaining]. destruct (rev (present ys)); eexists; reflexivity.
    - destruct E as [Q I]. destruct (t_requested t); [|destruct S as (_ & _ & S3 & _); rewrite S3 in I; contradiction]. destruct S as (S1 & S2 & S3 & S4 & S5 & S6 & S7). specialize (S7 Q).
      unfold on_down. pose proof (erase_spec a (t_downs t)) as E1. destruct (erase a (t_downs t)) as [ds|]; [|contradiction]. cbn [drop_down t_remaining t_killing]. pose proof (erase_spec a (t_remaining t)) as E2. destruct (erase a (t_remaining t)) as [[|y ys]|]; try (eexists; reflexivity).
      destruct (t_killing t); [eexists; reflexivity|]. exfalso. apply E2. assert (IM : In a (t_monitors t ++ t_downs t)) by (rewrite in_app_iff; auto). destruct p.
      + destruct S7 as (b & B1 & B2 & B3). rewrite B2 in IM. destruct IM as [<-|[]]. specialize (S3 Q). destruct (back_some _ S3) as (l & c & C1 & C2). rewrite B1 in C2. injection C2 as <-. rewrite C1, in_app_iff. right. now left.
      + eapply Permutation_in; [exact S7|exact IM].
    - destruct E as [Q K]. destruct (t_requested t); [|destruct S as (_ & _ & _ & _ & _ & S6 & _); congruence]. destruct S as (S1 & S2 & S3 & _). specialize (S3 Q). unfold on_reminder. destruct (t_remaining t); [contradiction|]. eexists. reflexivity.
  Qed.
End Proofs.
