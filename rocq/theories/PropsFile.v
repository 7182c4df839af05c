(** C76: a saved file holds what was saved last, whatever the system calls do and wherever the
    process crashes. *)
From Coq Require Import List NArith Bool Arith Lia.
From Verif Require Import AddressModel TypeProofs TaxonomyProofs FileModel FileProofs.
Import ListNotations.
Open Scope nat_scope.
Local Notation length := List.length.

(** * One call *)

(** If nothing longer was left behind, then a save that succeeds leaves exactly the new content, and
    one that fails or is cut short by a crash leaves the file as it was; other files do not
    change. This is for all short writes, interrupts and failures of the system calls, and for a crash
    at any point. *)
Theorem C76_save : forall cap p x os d e d', save cap p x os d = (e, d') -> length (content (tmp p) d) <= length x ->
  d' p = (match e with Done => Some x | _ => d p end) /\ (e = Done -> d' (tmp p) = None) /\ forall q, q <> p -> q <> tmp p -> d' q = d q.
Proof.
  intros cap p x os d e d' H L. apply save_spec in H as (H1 & H2 & H3). split; [|split; [|assumption] ].
  - destruct e; try (apply H2; discriminate). rewrite (proj1 (H1 eq_refl)). unfold over. rewrite skipn_all2 by assumption. rewrite app_nil_r. reflexivity.
  - intros E. apply H1. assumption.
Qed.
(** A save succeeds if no system call fails and each write makes progress. *)
Theorem C76_save_succeeds : forall cap p x os d, 0 < cap -> forallb good os = true -> length x + 1 < moves os -> exists d', save cap p x os d = (Done, d').
Proof.
  intros cap p x os d C G L. unfold save, write. destruct os as [|o os]; [cbn in L; lia|]. cbn [forallb] in G. apply andb_prop in G as [G1 G2].
  assert (length x < moves os) as L' by (unfold moves in *; cbn [filter] in L; destruct (moving o); cbn [length] in L; lia).
  assert (match o :: os with [] => (Crashed, [], d) | Fail :: os' => (Failed, os', d) | _ :: os' => write_loop cap (tmp p) 0 x os' (open_write (tmp p) d) end =
    write_loop cap (tmp p) 0 x os (open_write (tmp p) d)) as -> by (destruct o; [reflexivity|discriminate|reflexivity]).
  destruct (write_loop_good cap (tmp p) os x 0 (open_write (tmp p) d) C G2 L') as (os' & d' & -> & G' & M).
  destruct os' as [|[| |n] os']; [cbn in M; lia|eexists; reflexivity|discriminate|eexists; reflexivity].
Qed.
(** Reading a file gives all of it or an error, for all short reads, interrupts and failures; all of it
    if no system call fails. *)
Theorem C76_read : forall cap p os d e y, read cap p os d d = (e, y) -> e = Done -> d p = Some y.
Proof.
  intros cap p os d e y H ->. unfold read in H. destruct os as [|o os]; [discriminate|].
  assert (match d p with None => (Failed, []) | Some x => match os with [] => (Crashed, []) | Fail :: _ => (Failed, []) | _ :: os2 =>
    match read_loop cap x (length x) [] os2 with (Done, y) => if length y =? length x then (Done, y) else (Failed, []) | (e, _) => (e, []) end end end = (Done, y)) as H'.
  { destruct o; try discriminate; (destruct (d p) eqn:E; [|discriminate]); destruct os as [|[| |n0] os0]; try discriminate; assumption. }
  clear H. destruct (d p) as [x|]; [|discriminate]. destruct os as [|o' os]; [discriminate|].
  assert (match read_loop cap x (length x) [] os with (Done, y) => if length y =? length x then (Done, y) else (Failed, []) | (e, _) => (e, []) end = (Done, y)) as H
    by (destruct o'; [assumption|discriminate|assumption]).
  destruct (read_loop cap x (length x) [] os) as [ [| |] z] eqn:R; try discriminate. destruct (length z =? length x) eqn:L; [|discriminate]. inversion H; subst z.
  apply read_loop_spec in R as (k & E & K). apply Nat.eqb_eq in L. cbn [app] in E. subst y. rewrite firstn_length in L. f_equal. rewrite firstn_all2 by lia. reflexivity.
Qed.
Theorem C76_read_succeeds : forall cap p os d x, 0 < cap -> forallb good os = true -> length x + 1 < moves os -> d p = Some x -> read cap p os d d = (Done, x).
Proof.
  intros cap p os d x C G L D. unfold read. destruct os as [|o os]; [cbn in L; lia|]. cbn [forallb] in G. apply andb_prop in G as [G1 G2].
  assert (length x < moves os) as L' by (unfold moves in *; cbn [filter] in L; destruct (moving o); cbn [length] in L; lia).
  rewrite D. destruct os as [|o' os]; [cbn in L'; lia|]. cbn [forallb] in G2. apply andb_prop in G2 as [G2 G3].
  assert (length x <= moves os) as L2 by (unfold moves in *; cbn [filter] in L'; destruct (moving o'); cbn [length] in L'; lia).
  rewrite (read_loop_good cap os x (length x) [] C G3 eq_refl L2). cbn [app]. rewrite Nat.eqb_refl.
  destruct o; try discriminate; destruct o'; try discriminate; reflexivity.
Qed.

(** * Histories *)

(** The answers to a history of requests agree with a plain map: a write that is answered with success
    changes one entry, all else changes nothing, and what is read is what the map has. *)
Fixpoint consistent (rs : list (request * list outcome)) (l : list (option answer)) (m m' : list N -> option (list N)) : Prop :=
  match rs, l with
  | [], [] => forall p, m p = m' p
  | (Write p x, _) :: rs', a :: l' => consistent rs' l' (match a with Some Ok => fun q => if bytes_eqb p q then Some x else m q | _ => m end) m'
  | (Read p, _) :: rs', a :: l' => (forall y, a = Some (Bytes y) -> m p = Some y) /\ consistent rs' l' m m'
  | _, _ => False
  end.
(** No save is shorter than a save of the same file that failed or crashed, since the last one that
    succeeded. [left] has the lengths of those. *)
Fixpoint safe (rs : list (request * list outcome)) (l : list (option answer)) (left : list N -> nat) : Prop :=
  match rs, l with
  | (Write p x, _) :: rs', a :: l' => left p <= length x /\
      safe rs' l' (fun q => if bytes_eqb p q then match a with Some Ok => 0 | _ => length x end else left q)
  | (Read _, _) :: rs', _ :: l' => safe rs' l' left
  | _, _ => True
  end.
Definition path_of (r : request * list outcome) : list N := match fst r with Write p _ | Read p => p end.
(** No file has the name of the temporary file of another. *)
Definition apart (rs : list (request * list outcome)) : Prop := forall r r', In r rs -> In r' rs -> path_of r <> tmp (path_of r').

Lemma history : forall cap rs s l s' left m, run cap rs s = (l, s') -> apart rs -> safe rs l left ->
  (forall r, In r rs -> length (content (tmp (path_of r)) (files s)) <= left (path_of r)) ->
  (forall q, (forall r, In r rs -> q <> tmp (path_of r)) -> m q = files s q) ->
  exists m', consistent rs l m m' /\ forall q, (forall r, In r rs -> q <> tmp (path_of r)) -> m' q = files s' q.
Proof.
  intros cap. induction rs as [|[r os] rs IH]; intros s l s' left m H A S T M.
  - inversion H; subst. exists m. split; [intros p; reflexivity|assumption].
  - cbn [run] in H. destruct (handle cap r os s) as [a s1] eqn:Eh. set (s2 := match a with None => fresh (files s1) | Some _ => s1 end) in *.
    destruct (run cap rs s2) as [l2 s3] eqn:Er. inversion H; subst l s'. clear H.
    assert (files s2 = files s1) as F by (unfold s2; destruct a; reflexivity).
    assert (apart rs) as A' by (intros x y Hx Hy; apply A; right; assumption).
    destruct r as [p x|p].
    + cbn [safe] in S. destruct S as [S1 S2].
      assert (In (Write p x, os) ((Write p x, os) :: rs)) as I0 by (left; reflexivity). assert (path_of (Write p x, os) = p) as P0 by reflexivity.
      assert (length (content (tmp p) (files s)) <= length x) as Lx by (specialize (T _ I0); rewrite P0 in T; lia).
      unfold handle in Eh. destruct (save cap p x os (files s)) as [e d] eqn:Es. pose proof (C76_save _ _ _ _ _ _ _ Es Lx) as (C1 & C2 & C3).
      pose proof (save_spec _ _ _ _ _ _ _ Es) as (_ & B2 & _).
      assert (files s1 = d /\ a = match e with Done => Some Ok | Failed => Some Error | Crashed => None end) as [Fd Ea] by (destruct e; inversion Eh; subst; split; reflexivity).
      assert (forall q, (forall r, In r rs -> q <> tmp (path_of r)) -> q <> tmp p -> (match a with Some Ok => fun q => if bytes_eqb p q then Some x else m q | _ => m end) q = d q) as M2.
      { intros q Hq Hp. assert (forall r, In r ((Write p x, os) :: rs) -> q <> tmp (path_of r)) as Hq' by (intros r [<-|Hr]; [exact Hp|auto]). specialize (M q Hq').
        destruct (bytes_eqb p q) eqn:E.
        - apply bytes_eqb_iff in E. subst q. rewrite C1. subst a. destruct e; [rewrite bytes_eqb_refl'; reflexivity|assumption|assumption].
        - assert (q <> p) by (intros ->; rewrite bytes_eqb_refl' in E; discriminate). rewrite C3 by assumption. subst a. destruct e; [rewrite E|..]; assumption. }
      assert (forall m2, (forall q, (forall r, In r rs -> q <> tmp (path_of r)) -> m2 q = files s2 q) ->
        exists m', consistent rs l2 m2 m' /\ forall q, (forall r, In r rs -> q <> tmp (path_of r)) -> m' q = files s3 q) as G.
      { intros m2 Hm. eapply (IH s2 l2 s3); [exact Er|exact A'|exact S2| |exact Hm]. intros r Hr. rewrite F, Fd. cbv beta.
        destruct (bytes_eqb p (path_of r)) eqn:E.
        - apply bytes_eqb_iff in E. rewrite <- E. subst a. destruct e.
          + unfold content. rewrite (C2 eq_refl). cbn. lia.
          + destruct B2 as [_ B]; [discriminate|]. lia.
          + destruct B2 as [_ B]; [discriminate|]. lia.
        - assert (p <> path_of r) as Ne by (intros X; rewrite X, bytes_eqb_refl' in E; discriminate).
          assert (d (tmp (path_of r)) = files s (tmp (path_of r))) as Q.
          { apply C3.
            - intros X. apply (A (Write p x, os) r I0 (or_intror Hr)). symmetry. exact X.
            - intros X. apply Ne. unfold tmp in X. apply app_inv_tail in X. symmetry. assumption. }
          unfold content. rewrite Q. apply T. right. assumption. }
      set (m2 := fun q => if bytes_eqb (tmp p) q then d q else (match a with Some Ok => fun q => if bytes_eqb p q then Some x else m q | _ => m end) q).
      (* The temporary file of this save may be any file of the map. *)
      cbn [consistent].
      assert (forall q, (forall r, In r rs -> q <> tmp (path_of r)) -> m2 q = files s2 q) as Hm2.
      { intros q Hq. unfold m2. rewrite F, Fd. destruct (bytes_eqb (tmp p) q) eqn:E; [reflexivity|]. apply M2; [assumption|].
        intros ->. rewrite bytes_eqb_refl' in E. discriminate. }
      destruct (G m2 Hm2) as (m' & G1 & G2).
      assert (forall rs l m1 m2 m', (forall r, In r rs -> path_of r <> tmp p) -> (forall q, q <> tmp p -> m1 q = m2 q) -> consistent rs l m2 m' ->
        exists m1', consistent rs l m1 m1' /\ forall q, q <> tmp p -> m1' q = m' q) as K.
      { clear. intros rs. induction rs as [|[r os] rs IH]; intros l m1 m2 m' N E C.
        - destruct l; [|destruct C]. exists m1. split; [intros q; reflexivity|]. intros q Hq. rewrite E by assumption. apply C.
        - destruct l as [|a l]; [destruct r; destruct C|]. assert (forall r, In r rs -> path_of r <> tmp p) as N' by (intros r' Hr; apply N; right; assumption). destruct r as [p' x'|p'].
          + cbn [consistent] in *. eapply IH; [exact N'| |exact C]. intros q Hq. destruct a as [ [| |]|]; try (apply E; assumption). destruct (bytes_eqb p' q); [reflexivity|apply E; assumption].
          + cbn [consistent] in *. destruct C as [C1 C2]. destruct (IH l m1 m2 m' N' E C2) as (m1' & K1 & K2). exists m1'. split; [|assumption]. split; [|assumption].
            intros y Hy. rewrite E; [auto|]. apply (N (Read p', os)). left. reflexivity. }
      destruct (K rs l2 (match a with Some Ok => fun q => if bytes_eqb p q then Some x else m q | _ => m end) m2 m') as (m1 & K1 & K2).
      * intros r Hr. apply (A r (Write p x, os)); [right; assumption|left; reflexivity].
      * intros q Hq. unfold m2. destruct (bytes_eqb (tmp p) q) eqn:E; [apply bytes_eqb_iff in E; congruence|reflexivity].
      * exact G1.
      * exists m1. split; [exact K1|]. intros q Hq. rewrite K2 by (apply (Hq (Write p x, os)); left; reflexivity). apply G2. intros r Hr. apply Hq. right. assumption.
    + cbn [safe] in S. unfold handle in Eh. destruct (read cap p os (files s) (files s)) as [e y] eqn:Es.
      assert (files s1 = files s /\ a = match e with Done => Some (Bytes y) | Failed => Some Error | Crashed => None end) as [Fd Ea] by (destruct e; inversion Eh; subst; split; reflexivity).
      assert (forall q, (forall r, In r rs -> q <> tmp (path_of r)) -> q <> tmp p -> m q = files s q) as M2.
      { intros q Hq Hp. apply M. intros r [<-|Hr]; [exact Hp|auto]. }
      assert (m p = files s p) as Mp.
      { apply M. intros r Hr. apply (A (Read p, os) r); [left; reflexivity|assumption]. }
      set (m2 := fun q => if bytes_eqb (tmp p) q then files s q else m q).
      destruct (IH s2 l2 s3 left m2 Er A' S) as (m' & G1 & G2).
      { intros r Hr. rewrite F, Fd. apply T. right. assumption. }
      { intros q Hq. unfold m2. rewrite F, Fd. destruct (bytes_eqb (tmp p) q) eqn:E; [reflexivity|]. apply M2; [assumption|]. intros ->. rewrite bytes_eqb_refl' in E. discriminate. }
      assert (forall rs l m1 m2 m', (forall r, In r rs -> path_of r <> tmp p) -> (forall q, q <> tmp p -> m1 q = m2 q) -> consistent rs l m2 m' ->
        exists m1', consistent rs l m1 m1' /\ forall q, q <> tmp p -> m1' q = m' q) as K.
      { clear. intros rs. induction rs as [|[r os] rs IH]; intros l m1 m2 m' N E C.
        - destruct l; [|destruct C]. exists m1. split; [intros q; reflexivity|]. intros q Hq. rewrite E by assumption. apply C.
        - destruct l as [|a l]; [destruct r; destruct C|]. assert (forall r, In r rs -> path_of r <> tmp p) as N' by (intros r' Hr; apply N; right; assumption). destruct r as [p' x'|p'].
          + cbn [consistent] in *. eapply IH; [exact N'| |exact C]. intros q Hq. destruct a as [ [| |]|]; try (apply E; assumption). destruct (bytes_eqb p' q); [reflexivity|apply E; assumption].
          + cbn [consistent] in *. destruct C as [C1 C2]. destruct (IH l m1 m2 m' N' E C2) as (m1' & K1 & K2). exists m1'. split; [|assumption]. split; [|assumption].
            intros y Hy. rewrite E; [auto|]. apply (N (Read p', os)). left. reflexivity. }
      destruct (K rs l2 m m2 m') as (m1 & K1 & K2).
      * intros r Hr. apply (A r (Read p, os)); [right; assumption|left; reflexivity].
      * intros q Hq. unfold m2. destruct (bytes_eqb (tmp p) q) eqn:E; [apply bytes_eqb_iff in E; congruence|reflexivity].
      * exact G1.
      * exists m1. cbn [consistent]. split; [split; [|exact K1] |].
        -- intros y' Hy. rewrite Mp. subst a. destruct e; try discriminate. inversion Hy; subst y'. eapply C76_read; [exact Es|reflexivity].
        -- intros q Hq. rewrite K2 by (apply (Hq (Read p, os)); left; reflexivity). apply G2. intros r Hr. apply Hq. right. assumption.
Qed.
(** For every history of requests with failures and crashes, that starts without temporary files: what is
    read is what was saved last with success, as long as no save is shorter than one that was cut
    short. *)
Theorem C76_history : forall cap rs d l s, run cap rs (fresh d) = (l, s) -> apart rs -> safe rs l (fun _ => 0) ->
  (forall r, In r rs -> d (tmp (path_of r)) = None) ->
  exists m, consistent rs l d m /\ forall q, (forall r, In r rs -> q <> tmp (path_of r)) -> m q = files s q.
Proof.
  intros cap rs d l s H A S T. eapply history; [exact H|exact A|exact S| |reflexivity]. intros r Hr. unfold content. cbn [files fresh]. rewrite (T r Hr). cbn. lia.
Qed.
(** In particular if all saves succeed. *)
Theorem C76_successes : forall rs l, length rs = length l -> (forall r a, In (r, a) (combine rs l) -> forall p x, fst r = Write p x -> a = Some Ok) -> safe rs l (fun _ => 0).
Proof.
  intros rs. assert (forall l left, (forall p, left p = 0) -> length rs = length l -> (forall r a, In (r, a) (combine rs l) -> forall p x, fst r = Write p x -> a = Some Ok) -> safe rs l left) as G.
  { induction rs as [|[r os] rs IH]; intros l left Z L H; [exact I|]. destruct l as [|a l]; [discriminate|]. cbn [length] in L. destruct r as [p x|p]; cbn [safe].
    - split; [rewrite Z; lia|]. apply IH; [|lia|intros r' a' Hi; apply H; right; assumption]. intros q. rewrite (H (Write p x, os) a (or_introl eq_refl) p x eq_refl).
      destruct (bytes_eqb p q); [reflexivity|apply Z].
    - apply IH; [assumption|lia|intros r' a' Hi; apply H; right; assumption]. }
  intros l. apply G. reflexivity.
Qed.

(** * What does not hold *)

(** The temporary file is opened without cutting off what it holds. After a crash during a save a
    shorter save succeeds but leaves a file that holds the end of the other content. *)
Theorem C76_leftover_refuted : exists p x y os1 os2 d1 d2, save 10 p x os1 (fun _ => None) = (Crashed, d1) /\ save 10 p y os2 d1 = (Done, d2) /\
  d2 p <> Some y /\ d2 p <> Some x /\ d2 p <> None.
Proof.
  exists [1%N], [1; 2; 3]%N, [9]%N, [Part 0; Part 3], [Part 0; Part 1; Part 0]. eexists _, _. split; [reflexivity|]. split; [reflexivity|]. vm_compute. repeat split; discriminate.
Qed.
(** The same without a crash, if a write and then the removal of the temporary file fail. *)
Theorem C76_failure_refuted : exists p x y os1 os2 d1 d2, save 10 p x os1 (fun _ => None) = (Failed, d1) /\ save 10 p y os2 d1 = (Done, d2) /\ d2 p <> Some y.
Proof.
  exists [1%N], [1; 2; 3]%N, [9]%N, [Part 0; Part 2; Fail; Fail], [Part 0; Part 1; Part 0]. eexists _, _. split; [reflexivity|]. split; [reflexivity|]. vm_compute. discriminate.
Qed.
(** If a file is replaced between the two looks at it, what is read may be neither the old nor the new
    content. *)
Theorem C76_replaced_refuted : exists p os d d' y, read 10 p os d d' = (Done, y) /\ d p <> Some y /\ d' p <> Some y.
Proof.
  exists [1%N], [Part 0; Part 0; Part 5], (fun _ => Some [1; 2]%N), (fun _ => Some [7; 8; 9]%N). eexists. split; [reflexivity|]. split; discriminate.
Qed.
(** Skipping bytes reports failure when it succeeds, and success when it fails. *)
Theorem C76_seek_refuted : forall fine, fst (seek true false fine) = negb fine.
Proof. intros []; reflexivity. Qed.
(** The numbers of requests are counted as they are answered; for the bytes one is added for each
    request. *)
Definition written (rs : list (request * list outcome)) (l : list (option answer)) : list (list N) :=
  flat_map (fun z => match z with ((Write _ x, _), Some Ok) => [x] | _ => [] end) (combine rs l).
Definition refused (rs : list (request * list outcome)) (l : list (option answer)) : nat :=
  length (filter (fun z => match z with ((Write _ _, _), Some Error) => true | _ => false end) (combine rs l)).
Lemma sum_cons : forall a l, list_sum (a :: l) = a + list_sum l.
Proof. reflexivity. Qed.
Theorem C76_statistics : forall cap rs s l s', run cap rs s = (l, s') -> (forall a, In a l -> a <> None) ->
  (successful (writes s') = successful (writes s) + N.of_nat (length (written rs l)))%N /\
  (failed (writes s') = failed (writes s) + N.of_nat (refused rs l))%N /\
  (bytes_ (writes s') = bytes_ (writes s) + N.of_nat (length (written rs l)) + N.of_nat (list_sum (map (@length N) (written rs l))))%N.
Proof.
  intros cap. induction rs as [|[r os] rs IH]; intros s l s' H Alive; [inversion H; subst; cbn; repeat split; lia|].
  cbn [run] in H. destruct (handle cap r os s) as [a s1] eqn:Eh. destruct (run cap rs (match a with None => fresh (files s1) | Some _ => s1 end)) as [l2 s3] eqn:Er.
  inversion H; subst l s'. clear H. destruct a as [a|]; [|destruct (Alive None); [left; reflexivity|reflexivity] ].
  apply IH in Er as (R1 & R2 & R3); [|intros a' Ha; apply Alive; right; assumption]. unfold handle in Eh. destruct r as [p x|p].
  - destruct (save cap p x os (files s)) as [ [| |] d]; inversion Eh; subst a s1; unfold written, refused in *; cbn [combine flat_map filter writes succeeded not_succeeded successful failed bytes_ app length map] in *;
      repeat split; try lia. rewrite sum_cons. lia.
  - destruct (read cap p os (files s) (files s)) as [ [| |] y]; inversion Eh; subst a s1; unfold written, refused in *; cbn [combine flat_map filter writes app] in *; auto.
Qed.
Theorem C76_bytes_refuted : exists rs l s, run 10 rs (fresh (fun _ => None)) = (l, s) /\ (forall a, In a l -> a = Some Ok) /\
  bytes_ (writes s) <> N.of_nat (list_sum (map (@length N) (written rs l))).
Proof.
  exists [(Write [1%N] [5; 6]%N, [Part 0; Part 2; Part 0])]. eexists _, _. split; [vm_compute; reflexivity|]. split; [intros a [<-|[] ]; reflexivity|]. vm_compute. discriminate.
Qed.

(** The same for reads. *)
Definition delivered (rs : list (request * list outcome)) (l : list (option answer)) : list (list N) :=
  flat_map (fun ra => match ra with ((Read _, _), Some (Bytes y)) => [y] | _ => [] end) (combine rs l).
Definition unread (rs : list (request * list outcome)) (l : list (option answer)) : nat :=
  length (filter (fun ra => match ra with ((Read _, _), Some Error) => true | _ => false end) (combine rs l)).
Theorem C76_read_statistics : forall cap rs s l s', run cap rs s = (l, s') -> (forall a, In a l -> a <> None) ->
  (successful (reads s') = successful (reads s) + N.of_nat (length (delivered rs l)))%N /\
  (failed (reads s') = failed (reads s) + N.of_nat (unread rs l))%N /\
  (bytes_ (reads s') = bytes_ (reads s) + N.of_nat (length (delivered rs l)) + N.of_nat (list_sum (map (@length N) (delivered rs l))))%N.
Proof.
  intros cap. induction rs as [|[r os] rs IH]; intros s l s' H Alive; [inversion H; subst; cbn; repeat split; lia|].
  cbn [run] in H. destruct (handle cap r os s) as [a s1] eqn:Eh. destruct (run cap rs (match a with None => fresh (files s1) | Some _ => s1 end)) as [l2 s3] eqn:Er.
  inversion H; subst l s'. clear H. destruct a as [a|]; [|destruct (Alive None); [left; reflexivity|reflexivity] ].
  apply IH in Er as (R1 & R2 & R3); [|intros a' Ha; apply Alive; right; assumption]. unfold handle in Eh. destruct r as [p x|p].
  - destruct (save cap p x os (files s)) as [ [| |] d]; inversion Eh; subst a s1; unfold delivered, unread in *; cbn [combine flat_map filter reads app] in *; auto.
  - destruct (read cap p os (files s) (files s)) as [ [| |] y]; inversion Eh; subst a s1; unfold delivered, unread in *; cbn [combine flat_map filter reads succeeded not_succeeded successful failed bytes_ app length map] in *;
      repeat split; try lia. rewrite sum_cons. lia.
Qed.
Example C76_read_statistics_example : exists l s, run 10 [(Write [1] [5; 6], [Part 0; Part 2; Part 0]); (Read [1], [Part 0; Part 0; Part 2]); (Read [2], [Part 0; Part 0])]%N (fresh (fun _ => None)) = (l, s) /\
  (forall a, In a l -> a <> None) /\ successful (reads s) = 1%N /\ failed (reads s) = 1%N.
Proof. eexists _, _. split; [vm_compute; reflexivity|]. split; [intros a [<-|[<-|[<-|[] ] ] ]; discriminate|]. vm_compute. auto. Qed.

(** A save that fails because one system call fails leaves no temporary file. *)
Definition fails (os : list outcome) : nat := length (filter (fun o => match o with Fail => true | _ => false end) os).
Definition moving (o : outcome) : Prop := match o with Part 0 => False | _ => True end.
Lemma loop_fails : forall cap p os total rest d e os' d', 0 < cap -> Forall moving os -> write_loop cap p total rest os d = (e, os', d') ->
  (e = Failed -> fails os = S (fails os')) /\ (e = Done -> fails os = fails os').
Proof.
  intros cap p. induction os as [|o os IH]; intros total rest d e os' d' C M H.
  - destruct rest; cbn in H; inversion H; subst; split; [discriminate|reflexivity|discriminate|discriminate].
  - inversion M as [|? ? M1 M2]; subst. destruct rest as [|c rest]; [cbn in H; inversion H; subst; split; [discriminate|reflexivity]|]. destruct o as [| |n]; cbn [write_loop] in H.
    + apply IH in H; [|assumption|assumption]. exact H.
    + inversion H; subst. split; [reflexivity|discriminate].
    + destruct (Nat.eqb_spec (min n (min cap (length (c :: rest)))) 0) as [E|E]; [exfalso; destruct n; [exact M1|]; cbn [length] in E; lia|]. apply IH in H; [|assumption|assumption]. exact H.
Qed.
Theorem C76_clean : forall cap p x os d d', 0 < cap -> Forall moving os -> fails os = 1 -> save cap p x os d = (Failed, d') -> d' (tmp p) = None.
Proof.
  intros cap p x os d d' C M F H. unfold save in H. assert (forall q u, set q None u q = None) as S by (intros q u; unfold set; rewrite (proj2 (TypeProofs.bytes_eqb_iff q q) eq_refl); reflexivity).
  assert (forall os1 u e, fails os1 = 0 -> match remove (tmp p) os1 u with (Crashed, _, d2) => (Crashed, d2) | (_, _, d2) => (e, d2) end = (Failed, d') -> d' (tmp p) = None) as R.
  { intros os1 u e Z Q. unfold remove in Q. destruct os1 as [|[| |n] os1]; try discriminate; inversion Q; subst; apply S. }
  destruct (write cap (tmp p) x os d) as [ [e os1] d1] eqn:W.
  assert ((e = Failed -> fails os1 = 0) /\ (e = Done -> fails os1 = 1)) as [W1 W2].
  { unfold write in W. destruct os as [|o os]; [inversion W; subst; split; discriminate|]. inversion M as [|? ? M1 M2]; subst.
    destruct o as [| |n]; [|inversion W; subst; cbn in F; split; [intros _; unfold fails in *; cbn in F; lia|discriminate]|].
    - apply loop_fails in W; [|assumption|assumption]. destruct W as [A B]. unfold fails in *. cbn [filter] in F. split; intros X; [specialize (A X)|specialize (B X)]; lia.
    - apply loop_fails in W; [|assumption|assumption]. destruct W as [A B]. unfold fails in *. cbn [filter] in F. split; intros X; [specialize (A X)|specialize (B X)]; lia. }
  destruct e.
  - specialize (W2 eq_refl). destruct os1 as [|[| |n] os1]; try discriminate. apply R in H; [exact H|]. unfold fails in *. cbn in W2. lia.
  - apply R in H; [exact H|]. auto.
  - discriminate.
Qed.
Example C76_clean_example : exists d', save 10 [1%N] [5; 6]%N [Part 1; Part 1; Fail; Intr] (fun _ => None) = (Failed, d') /\ d' (tmp [1%N]) = None.
Proof. eexists. split; [vm_compute; reflexivity|]. reflexivity. Qed.

(** * Examples *)

(** Short writes and an interrupt; a crash; then the file is read. *)
Example C76_history_example : exists s,
  let rs := [(Write [1] [1; 2; 3], [Part 0; Part 2; Intr; Part 9; Part 0]); (Write [1] [4; 5; 6; 7], [Part 0; Part 2]); (Read [1], [Part 0; Part 0; Part 1; Part 7]);
             (Write [1] [8; 8; 8; 8; 8], [Part 0; Part 9; Part 0]); (Read [1], [Part 0; Part 0; Part 9])]%N in
  let l := [Some Ok; None; Some (Bytes [1; 2; 3]); Some Ok; Some (Bytes [8; 8; 8; 8; 8])]%N in
  run 10 rs (fresh (fun _ => None)) = (l, s) /\ apart rs /\ safe rs l (fun _ => 0).
Proof.
  eexists. cbv zeta. split; [vm_compute; reflexivity|]. split.
  - intros r r' H H'. cbn [In] in H, H'. repeat (destruct H as [<-|H]); try destruct H; repeat (destruct H' as [<-|H']); try destruct H'; discriminate.
  - cbn. repeat split; lia.
Qed.

(** The hypotheses of [C76_save_succeeds] and [C76_read_succeeds]. *)
Example C76_succeeds_example : let os := [Part 1; Part 1; Intr; Part 2; Part 3] in forallb good os = true /\ length [7; 8]%N + 1 < moves os /\
  fst (save 10 [1%N] [7; 8]%N os (fun _ => None)) = Done /\ read 10 [1%N] os (fun _ => Some [7; 8]%N) (fun _ => Some [7; 8]%N) = (Done, [7; 8]%N).
Proof. vm_compute. repeat split. lia. Qed.

Definition assumptions_file := (C76_save, C76_save_succeeds, C76_read, C76_read_succeeds, C76_history, C76_successes, C76_leftover_refuted, C76_failure_refuted,
  C76_replaced_refuted, C76_seek_refuted, C76_statistics, C76_read_statistics, C76_clean, C76_bytes_refuted).
Print Assumptions assumptions_file.
