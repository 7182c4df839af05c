From Coq Require Import List ZArith NArith Lia Bool Sorted ZifyBool ZifyNat ZifyN.
From Verif Require Import ImporterModel.
Import ListNotations.
Open Scope N_scope.
Ltac Zify.zify_post_hook ::= Z.div_mod_to_equations.

(** ** Printing and parsing *)

Definition no_digit_head (s : list N) : Prop :=
  match s with [] => True | c :: _ => is_digit c = false end.

Definition digits_val (acc : N) (ds : list N) : N :=
  fold_left (fun a c => a * 10 + (c - 48)) ds acc.

Lemma read_digits_app : forall ds rest acc,
  Forall (fun c => is_digit c = true) ds -> no_digit_head rest ->
  read_digits acc (ds ++ rest) = (digits_val acc ds, rest).
Proof.
  induction ds as [|c ds IH]; intros rest acc Hd Hr; simpl.
  - destruct rest as [|c r]; simpl; auto. simpl in Hr. now rewrite Hr.
  - inversion Hd; subst. rewrite H1. rewrite IH; auto.
Qed.

Lemma digit_ok : forall n, is_digit (ch_0 + n mod 10) = true.
Proof. intros. unfold is_digit, ch_0. lia. Qed.

Lemma print_digits_spec : forall fuel n acc,
  n < 2 ^ N.of_nat fuel ->
  (0 < fuel)%nat ->
  Forall (fun c => is_digit c = true) acc ->
  exists ds, print_digits fuel n acc = ds ++ acc /\ ds <> [] /\
    Forall (fun c => is_digit c = true) ds /\
    forall a, exists p, digits_val a ds = a * p + n.
Proof.
  induction fuel as [|f IH]; intros n acc Hn Hf Ha; [lia|].
  cbn [print_digits].
  destruct (N.ltb_spec n 10).
  - exists [ch_0 + n mod 10]. repeat split; auto; try discriminate.
    + constructor; auto using digit_ok.
    + intro a. exists 10. unfold digits_val. cbn [fold_left]. unfold ch_0. lia.
  - destruct (IH (n / 10) (ch_0 + n mod 10 :: acc)) as (ds & E & NE & F & V).
    + rewrite Nat2N.inj_succ, N.pow_succ_r' in Hn.
      remember (2 ^ N.of_nat f) as q. lia.
    + destruct f; [|lia]. cbn in Hn. lia.
    + constructor; auto using digit_ok.
    + exists (ds ++ [ch_0 + n mod 10]). rewrite E, <- app_assoc. repeat split; auto.
      * now destruct ds.
      * apply Forall_app. split; auto. constructor; auto using digit_ok.
      * intro a. destruct (V a) as [p Hp]. exists (p * 10).
        unfold digits_val in *. rewrite fold_left_app, Hp. cbn [fold_left]. unfold ch_0. lia.
Qed.

Lemma print_N_spec : forall n,
  exists c ds, print_N n = c :: ds /\
    Forall (fun c => is_digit c = true) (c :: ds) /\ digits_val 0 (c :: ds) = n.
Proof.
  intro n. unfold print_N.
  destruct (print_digits_spec (S (N.size_nat n)) n []) as (ds & E & NE & F & V).
  - assert (n < 2 ^ N.size n) by apply N.size_gt.
    rewrite Nat2N.inj_succ, N.pow_succ_r'.
    replace (N.of_nat (N.size_nat n)) with (N.size n); [lia|].
    destruct n as [|p]; auto. clear. cbn [N.size N.size_nat].
    induction p as [p IH|p IH|]; cbn [Pos.size Pos.size_nat]; auto;
      rewrite Nat2N.inj_succ, <- IH; reflexivity.
  - lia.
  - constructor.
  - rewrite app_nil_r in E. destruct ds as [|c ds]; [easy|].
    exists c, ds. rewrite E. repeat split; auto.
    destruct (V 0) as [p Hp]. rewrite Hp. lia.
Qed.

Lemma parse_print : forall n rest, no_digit_head rest ->
  parse_N (print_N n ++ rest) = Some (n, rest).
Proof.
  intros n rest Hr. destruct (print_N_spec n) as (c & ds & E & F & V).
  rewrite E. inversion F; subst. unfold parse_N. cbn [app skip_space].
  assert (c =? ch_space = false) as ->.
  { unfold ch_space. unfold is_digit in H1. lia. }
  rewrite H1.
  change (c :: ds ++ rest) with ((c :: ds) ++ rest).
  rewrite read_digits_app; auto.
Qed.

Lemma parse_space : forall s, parse_N (ch_space :: s) = parse_N s.
Proof. reflexivity. Qed.

Lemma load_without_next : forall b,
  load (Some (state_text false b)) = Some {| b_next := b_end b; b_end := b_end b |}.
Proof.
  intro b. unfold load, state_text.
  rewrite <- (app_nil_r (print_N (b_end b))), parse_print by exact I.
  reflexivity.
Qed.

Lemma load_with_next : forall b,
  load (Some (state_text true b)) = Some b.
Proof.
  intro b. unfold load, state_text. cbn [app].
  rewrite parse_print by reflexivity.
  rewrite parse_space, <- (app_nil_r (print_N (b_next b))), parse_print by exact I.
  now destruct b.
Qed.

(** ** Block growth *)

Lemma grow_spec : forall fuel next req e,
  (N.to_nat ((next + req - e) / block_size + 1) < fuel)%nat ->
  next + req < grow fuel next req e /\ e <= grow fuel next req e.
Proof.
  induction fuel as [|f IH]; intros next req e Hf; [now apply Nat.nlt_0_r in Hf|].
  cbn [grow]. destruct (N.leb_spec e (next + req)); [|clear Hf IH; lia].
  assert (Hb : block_size = 8388608) by reflexivity.
  destruct (N.ltb_spec (next + req) (e + block_size)).
  - clear Hf IH. destruct f as [|f]; cbn [grow]; [lia|].
    destruct (N.leb_spec (e + block_size) (next + req)); lia.
  - destruct (IH next req (e + block_size)) as [A B].
    + clear IH. rewrite Hb in *. lia.
    + split; [assumption | clear Hf IH; lia].
Qed.

Lemma next_end_spec : forall next req e,
  next + req < next_end next req e /\ e <= next_end next req e.
Proof. intros. apply grow_spec. apply Nat.lt_succ_diag_r. Qed.

(** ** Invariant *)

Local Opaque load state_text next_end.

(** [Inv hw s]: every ID handed out so far is below [hw], and neither the
    running process nor a process started from the current file can hand out an
    ID below [hw]. *)
Definition Inv (hw : N) (s : istate) : Prop :=
  (exists b, load (file s) = Some b /\ hw <= b_next b /\ b_next b <= b_end b) /\
  match proc s with
  | None => True
  | Some b => hw <= b_next b /\ b_next b < b_end b /\
              file s = Some (state_text false b) 
  end.

(** Writes that take effect completely or not at all. *)
Definition atomic (w : write_outcome) : Prop :=
  w = Wok \/ w = Wcrash_before \/ w = Wcrash_after.

Definition atomic_op (o : iop) : Prop :=
  match o with
  | Start _ w | NextId _ w | Shutdown w => atomic w
  | Crash => True
  end.

Lemma state_text_end : forall b n, 
  state_text false {| b_next := n; b_end := b_end b |} = state_text false b.
Proof. reflexivity. Qed.

Lemma istep_inv : forall hw s o,
  Inv hw s -> atomic_op o ->
  match snd (istep s o) with
  | None => Inv hw (fst (istep s o))
  | Some (a, z) => hw <= a /\ a <= z /\ Inv z (fst (istep s o))
  end.
Proof.
  intros hw [pr fl] o [(b0 & L & H1 & H2) Hp] Ha. cbn in L, Hp.
  destruct o as [g w|n w|w|]; cbn [istep proc file] in *.
  - destruct pr as [b|].
    + cbn. split; eauto.
    + rewrite L. cbn [file].
      pose proof (next_end_spec (b_next b0) 0 (b_end b0)) as [G1 G2].
      set (e := next_end (b_next b0) 0 (b_end b0)) in *.
      destruct Ha as [-> | [-> | ->]]; cbn [write_file fst snd proc file]; split; cbn; eauto.
      * exists {| b_next := e; b_end := e |}. rewrite load_without_next. cbn. repeat split; lia.
      * repeat split; lia.
      * exists {| b_next := e; b_end := e |}. rewrite load_without_next. cbn. repeat split; lia.
  - destruct pr as [b|]; [|cbn; split; eauto].
    destruct Hp as (P1 & P2 & P3).
    destruct (N.leb_spec (b_end b) (b_next b + n)) as [Hle|Hgt].
    + pose proof (next_end_spec (b_next b) n (b_end b)) as [G1 G2].
      set (e := next_end (b_next b) n (b_end b)) in *.
      destruct Ha as [-> | [-> | ->]]; cbn [write_file fst snd proc file]; try (split; cbn; eauto).
      * split; [lia|]. split; cbn.
        -- exists {| b_next := e; b_end := e |}. rewrite load_without_next. cbn. repeat split; lia.
        -- repeat split; try lia.
      * exists {| b_next := e; b_end := e |}. rewrite load_without_next. cbn. repeat split; lia.
    + cbn [fst snd]. split; [lia|]. split; [lia|]. split; cbn.
      * subst fl. rewrite load_without_next.
        eexists; split; [reflexivity|]. cbn. lia.
      * repeat split; try lia. exact P3.
  - destruct pr as [b|]; [|cbn; split; eauto].
    destruct Hp as (P1 & P2 & P3).
    destruct Ha as [-> | [-> | ->]]; cbn [write_file fst snd proc file]; split; cbn; eauto.
    + exists b. rewrite load_with_next. repeat split; lia.
    + exists b. rewrite load_with_next. repeat split; lia.
  - destruct pr as [b|]; cbn; split; eauto.
Qed.

Definition before (r1 r2 : N * N) : Prop := snd r1 <= fst r2.

Lemma irun_ids : forall os hw s,
  Inv hw s -> Forall atomic_op os ->
  Forall (fun r => hw <= fst r /\ fst r <= snd r) (snd (irun s os)) /\
  StronglySorted before (snd (irun s os)).
Proof.
  induction os as [|o os IH]; intros hw s Hi Ha; cbn.
  - split; constructor.
  - inversion Ha; subst.
    pose proof (istep_inv hw s o Hi H1) as St.
    destruct (istep s o) as [s1 r]. cbn in St.
    destruct r as [[a z]|].
    + destruct St as (A & B & C). destruct (IH z s1 C H2) as [F S].
      destruct (irun s1 os) as [s2 rs]. cbn in *. split.
      * constructor; [cbn; lia|]. eapply Forall_impl; [|exact F].
        intros [x y]; cbn. lia.
      * constructor; auto. eapply Forall_impl; [|exact F].
        intros [x y]; unfold before; cbn. lia.
    + destruct (IH hw s1 St H2) as [F S].
      destruct (irun s1 os) as [s2 rs]. cbn in *. auto.
Qed.

Local Transparent load state_text next_end.

Lemma Inv_init : Inv 0 init_istate.
Proof. split; cbn; auto. eexists; split; [reflexivity|]. cbn. lia. Qed.

(** A start never fails on a file produced by atomic writes. *)
Lemma irun_inv : forall os hw s,
  Inv hw s -> Forall atomic_op os -> exists hw', hw <= hw' /\ Inv hw' (fst (irun s os)).
Proof.
  induction os as [|o os IH]; intros hw s Hi Ha; cbn.
  - exists hw. split; [lia|auto].
  - inversion Ha; subst.
    pose proof (istep_inv hw s o Hi H1) as St.
    destruct (istep s o) as [s1 r]. cbn in St.
    destruct r as [[a z]|].
    + destruct St as (A & B & C). destruct (IH z s1 C H2) as (hw' & L & I').
      destruct (irun s1 os). cbn in *. exists hw'. split; [lia|auto].
    + destruct (IH hw s1 St H2) as (hw' & L & I').
      destruct (irun s1 os). cbn in *. exists hw'. auto.
Qed.
