(** C77: a database directory has at most one owner, and a crash of the owner does not keep others
    out. *)
From Coq Require Import List ZArith NArith Bool Arith Lia ZifyBool ZifyNat ZifyN.
From Verif Require Import LiteralModel LiteralProofs FileModel FileProofs PidFileModel.
Import ListNotations.
Open Scope N_scope.
Local Notation length := List.length.

(** Process identifiers have [n] digits. *)
Definition pid (n : nat) (p : N) : Prop := p < 10 ^ 20 /\ length (digits p) = n.
(** No process looks at the file while another is between its look and its claim, and a process that
    has looked is not killed before it has claimed. *)
Definition subject (e : event) : N := match e with Begin p | Look p | Claim p | Touch p | Leave p | Die p => p end.
Fixpoint ordered (es : list event) (busy : option N) (m : machine) : Prop :=
  match es with
  | [] => True
  | e :: es' =>
    match busy with
    | Some p => e = Claim p /\ match step e m with Some m' => ordered es' None m' | None => True end
    | None => match step e m with
              | Some m' => ordered es' (match e with Look p => if mem p (ready m') then Some p else None | _ => None end) m'
              | None => True
              end
    end
  end.

Lemma mem_in : forall p l, mem p l = true <-> In p l.
Proof. intros. unfold mem. rewrite existsb_exists. split; [intros (q & H & E); apply N.eqb_eq in E; subst; assumption|]. intros H. exists p. split; [assumption|apply N.eqb_refl]. Qed.
Lemma mem_not : forall p l, mem p l = false <-> ~ In p l.
Proof. intros. rewrite <- mem_in. destruct (mem p l); split; congruence. Qed.
Lemma drop_in : forall p q l, In q (drop p l) <-> In q l /\ q <> p.
Proof. intros. unfold drop. rewrite filter_In, negb_true_iff, N.eqb_neq. tauto. Qed.
Lemma parse_digits : forall p, p < 10 ^ 20 -> parse_pid (digits p) = Some p.
Proof.
  intros p H. destruct (digits_spec p H) as (E & D & L). unfold parse_pid. destruct (digits p) as [|c ds] eqn:X; [cbn in L; lia|]. rewrite D. f_equal. assumption.
Qed.

(** What holds between the events. *)
Record fine (n : nat) (m : machine) : Prop := {
  f_text : forall c, file m = Some c -> exists o, pid n o /\ c = digits o;
  f_owner : forall p, In p (owners m) -> In p (living m) /\ file m = Some (digits p) /\ pid n p;
  f_ready : ready m = [] }.
Lemma digits_inj : forall n p q, pid n p -> pid n q -> digits p = digits q -> p = q.
Proof. intros n p q [P _] [Q _] E. apply parse_digits in P. apply parse_digits in Q. congruence. Qed.
Lemma fine_one : forall n m p q, fine n m -> In p (owners m) -> In q (owners m) -> p = q.
Proof.
  intros n m p q F P Q. destruct (f_owner _ _ F p P) as (_ & E1 & P1). destruct (f_owner _ _ F q Q) as (_ & E2 & P2). rewrite E1 in E2. inversion E2. eapply digits_inj; eassumption.
Qed.
Lemma over_same : forall x y : list N, length x = length y -> over x y = x.
Proof. intros x y E. unfold over. rewrite E, skipn_all. apply app_nil_r. Qed.
Lemma fine_step : forall n m e m', fine n m -> pid n (subject e) -> step e m = Some m' -> fine n m' \/
  exists p, e = Look p /\ ready m' = [p] /\ In p (living m') /\ pid n p /\ owners m' = [] /\ file m' = file m /\ (forall c, file m = Some c -> exists o, pid n o /\ c = digits o).
Proof.
  intros n m e m' F S H. destruct e as [p|p|p|p|p|p]; cbn [step subject] in *.
  - left. destruct (mem p (living m)); [discriminate|]. inversion H; subst. constructor; cbn.
    + apply F.
    + intros q Q. destruct (f_owner _ _ F q Q) as (A & B & C). auto.
    + apply F.
  - destruct (mem p (living m)) eqn:L; [|discriminate]. rewrite (f_ready _ _ F) in *. cbn [mem existsb negb andb] in H. destruct (negb (mem p (owners m))) eqn:O; [|discriminate].
    apply mem_in in L. unfold look in H. destruct (file m) as [c|] eqn:Ec.
    + destruct (f_text _ _ F c Ec) as (o & Po & ->). rewrite (parse_digits o (proj1 Po)) in H. destruct (o =? p) eqn:E.
      * apply N.eqb_eq in E. subst o. left. inversion H; subst. constructor; cbn.
        -- intros c Hc. exists p. split; [assumption|congruence].
        -- intros q [<-|Q]; [auto|]. destruct (f_owner _ _ F q Q) as (A & B & C). rewrite Ec in B. auto.
        -- reflexivity.
      * destruct (mem o (living m)) eqn:M.
        -- left. inversion H; subst. assumption.
        -- right. inversion H; subst. exists p. cbn [ready living owners file]. repeat split; auto; try apply S; [|intros c Hc; exists o; split; [assumption|congruence] ].
           destruct (owners m) as [|q l] eqn:Eo; [reflexivity|]. destruct (f_owner _ _ F q) as (A & B & C); [rewrite Eo; left; reflexivity|].
           rewrite Ec in B. inversion B as [D]. apply (digits_inj n o q Po C) in D. subst q. apply mem_not in M. contradiction.
    + right. inversion H; subst. exists p. cbn [ready living owners file]. repeat split; auto; try apply S; [|intros c Hc; discriminate].
      destruct (owners m) as [|q l] eqn:Eo; [reflexivity|]. destruct (f_owner _ _ F q) as (A & B & C); [rewrite Eo; left; reflexivity|]. congruence.
  - rewrite (f_ready _ _ F) in H. discriminate.
  - rewrite (f_ready _ _ F) in H. discriminate.
  - left. destruct (mem p (owners m)) eqn:O; [|discriminate]. apply mem_in in O. inversion H; subst. constructor; cbn.
    + discriminate.
    + intros q Q. apply drop_in in Q as [Q Ne]. destruct (Ne (fine_one n m q p F Q O)).
    + rewrite (f_ready _ _ F). reflexivity.
  - left. destruct (mem p (living m)) eqn:L; [|discriminate]. inversion H; subst. constructor; cbn.
    + apply F.
    + intros q Q. apply drop_in in Q as [Q Ne]. destruct (f_owner _ _ F q Q) as (A & B & C). repeat split; auto; try apply C. apply drop_in. auto.
    + rewrite (f_ready _ _ F). reflexivity.
Qed.
Lemma claim_step : forall n m p m', ready m = [p] -> In p (living m) -> pid n p -> owners m = [] -> (forall c, file m = Some c -> exists o, pid n o /\ c = digits o) ->
  step (Claim p) m = Some m' -> fine n m'.
Proof.
  intros n m p m' R L P O T H. cbn [step] in H. rewrite R in H. cbn [mem existsb] in H. rewrite N.eqb_refl in H. cbn [orb] in H. inversion H; subst. clear H.
  assert (over (digits p) (match file m with Some c => c | None => [] end) = digits p) as E.
  { destruct (file m) as [c|]; [destruct (T c eq_refl) as (o & Po & ->); apply over_same; destruct P, Po; lia|]. unfold over. rewrite skipn_nil. apply app_nil_r. }
  rewrite E. constructor; cbn.
  - intros c Hc. exists p. split; [assumption|congruence].
  - rewrite O. intros q [<-|[] ]. auto.
  - rewrite N.eqb_refl. reflexivity.
Qed.
Lemma ordered_fine : forall n es m m', fine n m -> Forall (fun e => pid n (subject e)) es -> ordered es None m -> steps es m = Some m' -> fine n m' \/ owners m' = [].
Proof.
  intros n. assert (forall k es m m', (length es <= k)%nat -> fine n m -> Forall (fun e => pid n (subject e)) es -> ordered es None m -> steps es m = Some m' -> fine n m' \/ owners m' = []) as G.
  { induction k as [|k IH]; intros es m m' K F P O S.
    - destruct es; [|cbn in K; lia]. inversion S; subst. auto.
    - destruct es as [|e es]; [inversion S; subst; auto|]. cbn [steps ordered] in *. inversion P as [|? ? P1 P2]; subst. destruct (step e m) as [m1|] eqn:E; [|discriminate].
      destruct (fine_step n m e m1 F P1 E) as [F1|(p & -> & R & L & Pp & Ow & Ef & T)].
      + assert ((match e with Look p => if mem p (ready m1) then Some p else None | _ => None end) = None) as B.
        { destruct e; try reflexivity. rewrite (f_ready _ _ F1). reflexivity. }
        rewrite B in O. apply (IH es m1 m'); try assumption. cbn in K. lia.
      + rewrite R in O. cbn [mem existsb] in O. rewrite N.eqb_refl in O. cbn [orb] in O. destruct es as [|e2 es]; [inversion S; subst; auto|].
        cbn [ordered steps] in *. destruct O as [-> O]. inversion P2; subst. destruct (step (Claim p) m1) as [m2|] eqn:E2; [|discriminate].
        apply (IH es m2 m'); try assumption; [cbn in K; lia|]. eapply claim_step; try eassumption. rewrite Ef. assumption. }
  intros es m m'. apply (G (length es)). lia.
Qed.
Lemma fine_idle : forall n, fine n idle.
Proof. intros n. constructor; cbn; [discriminate|intros p []|reflexivity]. Qed.

(** If processes look and claim one after the other, and their identifiers have the same number of
    digits, then the directory has at most one owner, for all histories with crashes. *)
Theorem C77_exclusive : forall n es m p q, Forall (fun e => pid n (subject e)) es -> ordered es None idle -> steps es idle = Some m ->
  In p (owners m) -> In q (owners m) -> p = q.
Proof.
  intros n es m p q P O S Hp Hq. destruct (ordered_fine n es idle m (fine_idle n) P O S) as [F|E]; [eapply fine_one; eassumption|]. rewrite E in Hp. destruct Hp.
Qed.
(** A process that looks while there is an owner is refused. *)
Theorem C77_refused : forall n es m p q, Forall (fun e => pid n (subject e)) es -> ordered es None idle -> steps es idle = Some m ->
  In p (owners m) -> q <> p -> look q m = Refuse.
Proof.
  intros n es m p q P O S Hp Ne. destruct (ordered_fine n es idle m (fine_idle n) P O S) as [F|E]; [|rewrite E in Hp; destruct Hp].
  destruct (f_owner _ _ F p Hp) as (L & E & Pp). unfold look. rewrite E, (parse_digits p (proj1 Pp)).
  assert (p =? q = false) as -> by (apply N.eqb_neq; congruence). apply mem_in in L. rewrite L. reflexivity.
Qed.
Lemma ordered_text : forall n es m m', fine n m -> Forall (fun e => pid n (subject e)) es -> ordered es None m -> steps es m = Some m' ->
  forall c, file m' = Some c -> exists o, pid n o /\ c = digits o.
Proof.
  intros n es0 m0 m0'. assert (forall k es m m', (length es <= k)%nat -> fine n m -> Forall (fun e => pid n (subject e)) es -> ordered es None m -> steps es m = Some m' ->
    forall c, file m' = Some c -> exists o, pid n o /\ c = digits o) as G; [|apply (G (length es0)); lia].
  clear. induction k as [|k IH]; intros es m m' K F P O S.
  - destruct es; [|cbn in K; lia]. inversion S; subst. apply F.
  - destruct es as [|e es]; [inversion S; subst; apply F|]. cbn [steps ordered] in *. inversion P as [|? ? P1 P2]; subst. destruct (step e m) as [m1|] eqn:E; [|discriminate].
    destruct (fine_step n m e m1 F P1 E) as [F1|(p & -> & R & L & Pp & Ow & Ef & T)].
    + assert ((match e with Look p => if mem p (ready m1) then Some p else None | _ => None end) = None) as B.
      { destruct e; try reflexivity. rewrite (f_ready _ _ F1). reflexivity. }
      rewrite B in O. apply (IH es m1 m'); try assumption. cbn in K. lia.
    + rewrite R in O. cbn [mem existsb] in O. rewrite N.eqb_refl in O. cbn [orb] in O. destruct es as [|e2 es]; [inversion S; subst; rewrite Ef; assumption|].
      cbn [ordered steps] in *. destruct O as [-> O]. inversion P2; subst. destruct (step (Claim p) m1) as [m2|] eqn:E2; [|discriminate].
      apply (IH es m2 m'); try assumption; [cbn in K; lia|]. eapply claim_step; try eassumption. rewrite Ef. assumption.
Qed.
(** When the owner has left or was killed, and no process has its identifier, the next one gets the
    directory. *)
Theorem C77_next : forall n es m q, Forall (fun e => pid n (subject e)) es -> ordered es None idle -> steps es idle = Some m -> ready m = [] -> owners m = [] ->
  (forall p, file m = Some (digits p) -> ~ In p (living m)) -> pid n q -> ~ In q (living m) ->
  exists es' m', (es' = [Begin q; Look q; Claim q] \/ es' = [Begin q; Look q]) /\ steps es' m = Some m' /\ owners m' = [q] /\ file m' = Some (digits q).
Proof.
  intros n es m q P O S R W D Q L. pose proof (ordered_text n es idle m (fine_idle n) P O S) as T. apply mem_not in L.
  set (m1 := {| file := file m; living := q :: living m; ready := []; owners := [] |}).
  assert (step (Begin q) m = Some m1) as S1 by (cbn [step]; rewrite L, R, W; reflexivity).
  assert (file m = Some (digits q) \/ look q m1 = Go) as V.
  { unfold look, m1. cbn [file living]. destruct (file m) as [c|] eqn:E; [|auto]. destruct (T c eq_refl) as (o & Po & ->). rewrite (parse_digits o (proj1 Po)).
    destruct (o =? q) eqn:X; [apply N.eqb_eq in X; subst; auto|]. right.
    assert (mem o (q :: living m) = false) as ->; [|reflexivity]. apply mem_not. intros [X'|X']; [subst; rewrite N.eqb_refl in X; discriminate|]. exact (D o eq_refl X'). }
  assert (step (Look q) m1 = Some match look q m1 with
           | Refuse => m1
           | Own => {| file := file m1; living := living m1; ready := ready m1; owners := q :: owners m1 |}
           | Go => {| file := file m1; living := living m1; ready := q :: ready m1; owners := owners m1 |}
           end) as S2.
  { cbn [step]. unfold m1 at 1 2 3. cbn [living ready owners mem existsb]. rewrite N.eqb_refl. reflexivity. }
  destruct V as [V|V].
  - assert (look q m1 = Own) as V' by (unfold look, m1; cbn [file]; rewrite V, (parse_digits q (proj1 Q)), N.eqb_refl; reflexivity).
    rewrite V' in S2. exists [Begin q; Look q]. eexists. cbn [steps]. rewrite S1, S2. split; [auto|]. split; [reflexivity|]. split; [reflexivity|exact V].
  - rewrite V in S2. exists [Begin q; Look q; Claim q]. eexists. cbn [steps]. rewrite S1, S2. split; [auto|]. cbn [step ready mem existsb m1]. rewrite N.eqb_refl. cbn [orb].
    split; [reflexivity|]. split; [reflexivity|]. cbn [file]. change (file m1) with (file m). f_equal. destruct (file m) as [c|]; [destruct (T c eq_refl) as (o & Po & ->); apply over_same; destruct Q as [_ Q], Po as [_ Po]; congruence|].
    unfold over. rewrite skipn_nil. apply app_nil_r.
Qed.

(** A longer identifier in the file is not overwritten whole: a node with a shorter identifier takes the
    directory of a node that was killed, the file names neither, and a third node takes the directory
    while the second has it. *)
Definition shorter : list event := [Begin 12345; Look 12345; Claim 12345; Die 12345; Begin 99; Look 99; Claim 99; Begin 700; Look 700; Claim 700].
Theorem C77_shorter_refuted : exists es m, ordered es None idle /\ steps es idle = Some m /\ In 99 (owners m) /\ In 700 (owners m) /\ In 99 (living m) /\ In 700 (living m).
Proof. exists shorter. eexists. split; [vm_compute; tauto|]. split; [vm_compute; reflexivity|]. cbn. tauto. Qed.
(** Two nodes that look before either has written both get the directory. *)
Definition together : list event := [Begin 501; Begin 502; Look 501; Look 502; Claim 501; Claim 502].
Theorem C77_race_refuted : exists es m, Forall (fun e => pid 3 (subject e)) es /\ steps es idle = Some m /\ In 501 (owners m) /\ In 502 (owners m).
Proof. exists together. eexists. split; [repeat constructor|]. split; [vm_compute; reflexivity|]. cbn. tauto. Qed.
(** If the identifier of a node that was killed is given to another program, no node can start, although
    none runs. *)
Definition recycled : list event := [Begin 501; Look 501; Claim 501; Die 501; Begin 501; Begin 502].
Theorem C77_recycled_refuted : exists es m, Forall (fun e => pid 3 (subject e)) es /\ ordered es None idle /\ steps es idle = Some m /\ owners m = [] /\ ready m = [] /\ look 502 m = Refuse.
Proof. exists recycled. eexists. split; [repeat constructor|]. split; [vm_compute; tauto|]. split; [vm_compute; reflexivity|]. vm_compute. tauto. Qed.
(** A node that is killed between creating the file and writing it keeps all later nodes out. *)
Lemma empty_stays : forall es m m', file m = Some [] -> ready m = [] -> owners m = [] -> steps es m = Some m' -> file m' = Some [] /\ ready m' = [] /\ owners m' = [].
Proof.
  induction es as [|e es IH]; intros m m' F R W S; [inversion S; subst; auto|]. cbn [steps] in S. destruct (step e m) as [m1|] eqn:E; [|discriminate].
  apply (IH m1 m'); try assumption; clear IH S; destruct e as [p|p|p|p|p|p]; cbn [step] in E; unfold look in E; rewrite ?R, ?W, ?F in E; cbn [mem existsb negb andb parse_pid] in E; try discriminate;
    (destruct (mem p (living m)) eqn:X; unfold mem in X; rewrite ?X in E; cbn in E; try discriminate; inversion E; subst; cbn; rewrite ?R, ?W; auto).
Qed.
Theorem C77_empty_refuted : exists es m, Forall (fun e => pid 3 (subject e)) es /\ steps es idle = Some m /\ living m = [] /\
  forall es' m', steps es' m = Some m' -> owners m' = [] /\ forall q, look q m' = Refuse.
Proof.
  exists [Begin 501; Look 501; Touch 501]. eexists. split; [repeat constructor|]. split; [vm_compute; reflexivity|]. split; [reflexivity|].
  intros es' m' S. destruct (empty_stays es' {| file := Some []; living := []; ready := []; owners := [] |} m' eq_refl eq_refl eq_refl S) as (F & _ & W). split; [assumption|]. intros q. unfold look. rewrite F. reflexivity.
Qed.
(** The hypotheses can be met: a node is killed, the next takes over, leaves, and another starts. *)
Definition days : list event :=
  [Begin 501; Look 501; Claim 501; Begin 502; Look 502; Die 501; Look 502; Claim 502; Begin 503; Look 503; Leave 502; Look 503; Claim 503].
Example C77_history_example : exists m, Forall (fun e => pid 3 (subject e)) days /\ ordered days None idle /\ steps days idle = Some m /\ owners m = [503] /\ file m = Some [53; 48; 51] /\ look 502 m = Refuse.
Proof. eexists. split; [repeat constructor|]. split; [vm_compute; tauto|]. split; [vm_compute; reflexivity|]. vm_compute. tauto. Qed.
Example C77_next_example : exists m, steps [Begin 501; Look 501; Claim 501; Die 501] idle = Some m /\ ready m = [] /\ owners m = [] /\ file m = Some (digits 501) /\ living m = [].
Proof. eexists. split; [vm_compute; reflexivity|]. vm_compute. tauto. Qed.

Definition assumptions_pid_file := (C77_exclusive, C77_refused, C77_next, C77_shorter_refuted, C77_race_refuted, C77_recycled_refuted, C77_empty_refuted).
Print Assumptions assumptions_pid_file.
