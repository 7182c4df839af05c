(** C78: every line of Syslog becomes one event with what the message says. *)
From Coq Require Import List ZArith NArith Bool Arith Lia ZifyBool ZifyNat ZifyN String Ascii.
From Coq Require Import Init.Datatypes.
From Verif Require Import EscapeModel LiteralModel LiteralProofs SyslogModel SyslogProofs.
Import ListNotations.
Open Scope N_scope.
Local Notation length := List.length.
Local Notation concat := List.concat.
Local Notation bytes := (list N).

(** * Messages and their text (RFC 5424, section 6) *)
Record mail := { m_pri : N; m_version : N; m_time : option bytes; m_host : option bytes; m_app : option bytes; m_process : option bytes; m_id : option bytes;
                 m_data : option (list (bytes * list (bytes * bytes))); m_bom : bool; m_text : option bytes }.
Definition dash (w : option bytes) : bytes := match w with Some w => w | None => [45] end.
Definition bom : bytes := [239; 187; 191].
Definition text_part (bommed : bool) (t : option bytes) : bytes := match t with Some t => 32 :: (if bommed then bom ++ t else t) | None => [] end.
Definition data_part (d : option (list (bytes * list (bytes * bytes)))) : bytes := match d with Some es => concat (map element_text es) | None => [45] end.
Definition wire (m : mail) : bytes :=
  60 :: digits (m_pri m) ++ 62 :: digits (m_version m) ++ 32 :: dash (m_time m) ++ 32 :: dash (m_host m) ++ 32 :: dash (m_app m) ++ 32 :: dash (m_process m) ++ 32 :: dash (m_id m) ++
  32 :: data_part (m_data m) ++ text_part (m_bom m) (m_text m).
(** Header fields: printable characters without spaces, not only a dash. *)
Definition header_word (n : nat) (w : option bytes) : Prop := match w with Some w => w <> [] /\ w <> [45] /\ (length w <= n)%nat /\ Forall visible w | None => True end.
Definition is_time (time_p : bytes -> option (Z * bytes)) (w : option bytes) (t : option Z) : Prop :=
  match w, t with
  | Some w, Some z => w <> [] /\ w <> [45] /\ Forall (fun c => c <> 32) w /\ forall r, time_p (w ++ 32 :: r) = Some (z, 32 :: r)
  | None, None => True
  | _, _ => False
  end.
(** What the RFC allows and the code takes: there is a text if there is no structured data, elements have
    parameters, and the text does not itself begin with the mark of UTF-8. *)
Record fit (time_p : bytes -> option (Z * bytes)) (m : mail) (z : option Z) : Prop := {
  x_pri : m_pri m <= 191; x_version : 1 <= m_version m <= 999; x_time : is_time time_p (m_time m) z;
  x_host : header_word 255 (m_host m); x_app : header_word 48 (m_app m); x_process : header_word 128 (m_process m); x_id : header_word 32 (m_id m);
  x_data : match m_data m with Some es => es <> [] /\ Forall element_good es | None => m_text m <> None end;
  x_text : match m_text m with Some t => if m_bom m then t <> [] else firstn 3 t <> bom \/ t = bom | None => True end }.
Definition word_of (w : option bytes) : bytes := match w with Some w => w | None => [] end.

Lemma header_ok : forall n w r, header_word n w -> maybe_nil [] (word graphic n) (dash w ++ 32 :: r) = Some (word_of w, 32 :: r).
Proof.
  intros n [w|] r H; [|reflexivity]. destruct H as (N1 & N2 & L & F). apply graphic_visible in F. cbn [dash word_of]. unfold maybe_nil. rewrite nil_no by (auto using graphic_space).
  apply word_ok; try assumption. reflexivity.
Qed.
Lemma time_ok : forall time_p w z r, is_time time_p w z ->
  maybe_nil None (fun s => bind (time_p s) (fun '(t, r) => Some (Some t, r))) (dash w ++ 32 :: r) = Some (z, 32 :: r).
Proof.
  intros time_p [w|] [z|] r H; try contradiction; [|reflexivity]. destruct H as (N1 & N2 & F & P). cbn [dash]. unfold maybe_nil. rewrite nil_no by assumption. rewrite P. reflexivity.
Qed.
Lemma content_plain : forall t, firstn 3 t <> bom \/ t = bom -> content t = t.
Proof.
  intros t H. destruct t as [|a [|b [|c [|d t] ] ] ]; try reflexivity; unfold content.
  - destruct a as [|a]; [reflexivity|]. repeat (destruct a as [a|a|]; try reflexivity).
  - destruct a as [|a]; [reflexivity|]. repeat (destruct a as [a|a|]; try reflexivity). destruct b as [|b]; [reflexivity|]. repeat (destruct b as [b|b|]; try reflexivity).
  - destruct a as [|a]; [reflexivity|]. repeat (destruct a as [a|a|]; try reflexivity). destruct b as [|b]; [reflexivity|]. repeat (destruct b as [b|b|]; try reflexivity).
    destruct c as [|c]; [reflexivity|]. repeat (destruct c as [c|c|]; try reflexivity).
  - destruct H as [H|H]; [|discriminate]. cbn [firstn] in H.
    destruct a as [|a]; [reflexivity|]. repeat (destruct a as [a|a|]; try reflexivity). destruct b as [|b]; [reflexivity|]. repeat (destruct b as [b|b|]; try reflexivity).
    destruct c as [|c]; [reflexivity|]. repeat (destruct c as [c|c|]; try reflexivity). exfalso. apply H. reflexivity.
Qed.

(** A message comes out with its fields. *)
Theorem C78_message : forall time_p m z, fit time_p m z ->
  message time_p (wire m) = Some {| facility := m_pri m / 8; severity := m_pri m mod 8; version := m_version m; stamp := z; hostname := word_of (m_host m); app_name := word_of (m_app m);
    process_id := word_of (m_process m); message_id := word_of (m_id m); text_of := m_text m |}.
Proof.
  intros time_p m z [P V T H A R I D X]. unfold message, wire. rewrite lit_ok. cbn [bind]. rewrite number_ok by (reflexivity || lia). cbn [bind].
  destruct (191 <? m_pri m) eqn:E1; [lia|]. rewrite lit_ok. cbn [bind]. rewrite number_ok by (reflexivity || lia). cbn [bind]. destruct (m_version m =? 0) eqn:E2; [lia|].
  rewrite lit_ok. cbn [bind]. rewrite (time_ok _ _ z) by assumption. cbn [bind]. rewrite lit_ok. cbn [bind]. rewrite header_ok by assumption. cbn [bind]. rewrite lit_ok. cbn [bind].
  rewrite header_ok by assumption. cbn [bind]. rewrite lit_ok. cbn [bind]. rewrite header_ok by assumption. cbn [bind]. rewrite lit_ok. cbn [bind]. rewrite header_ok by assumption. cbn [bind].
  rewrite lit_ok. cbn [bind].
  assert (structured (data_part (m_data m) ++ text_part (m_bom m) (m_text m)) = Some (text_part (m_bom m) (m_text m))) as ->.
  { destruct (m_data m) as [es|]; cbn [data_part].
    - destruct D as [N F]. apply structured_ok; try assumption. destruct (m_text m); [reflexivity|exact Logic.I].
    - destruct (m_text m); [reflexivity|congruence]. }
  cbn [bind]. destruct (m_text m) as [t|]; cbn [text_part]; [|reflexivity]. do 2 f_equal. f_equal. destruct (m_bom m).
  - destruct t as [|c t]; [congruence|reflexivity].
  - apply content_plain. assumption.
Qed.

(** Conversely, only lines of this form become events with fields. *)
Theorem C78_only : forall time_p l f, (forall s t r, time_p s = Some (t, r) -> exists w, s = w ++ r) -> message time_p l = Some f ->
  exists pri ver t h a p i d rest,
    l = 60 :: pri ++ 62 :: ver ++ 32 :: t ++ 32 :: h ++ 32 :: a ++ 32 :: p ++ 32 :: i ++ 32 :: d ++ rest /\
    forallb isdigit pri = true /\ (1 <= length pri <= 3)%nat /\ num pri = 8 * facility f + severity f /\ facility f <= 23 /\ severity f <= 7 /\
    forallb isdigit ver = true /\ (1 <= length ver <= 3)%nat /\ num ver = version f /\ version f <> 0 /\
    match stamp f with Some z => exists r, time_p (t ++ r) = Some (z, r) | None => t = [45] end /\
    (h = hostname f /\ Forall visible h /\ (1 <= length h <= 255)%nat \/ h = [45] /\ hostname f = []) /\
    (a = app_name f /\ Forall visible a /\ (1 <= length a <= 48)%nat \/ a = [45] /\ app_name f = []) /\
    (p = process_id f /\ Forall visible p /\ (1 <= length p <= 128)%nat \/ p = [45] /\ process_id f = []) /\
    (i = message_id f /\ Forall visible i /\ (1 <= length i <= 32)%nat \/ i = [45] /\ message_id f = []) /\
    (d = [45] \/ hd 0 d = 91) /\
    match text_of f with Some x => rest = 32 :: x \/ rest = 32 :: bom ++ x | None => rest = [] end.
Proof.
  intros time_p l f Suffix H.
  assert (forall n s w r, maybe_nil [] (word graphic n) s = Some (w, r) -> exists x, s = x ++ r /\ (x = w /\ Forall visible x /\ (1 <= length x <= n)%nat \/ x = [45] /\ w = [])) as W.
  { intros n s w r E. unfold maybe_nil in E. destruct (nil_ahead s) eqn:Z.
    - apply nil_inv in Z as (r' & ->). inversion E; subst. exists [45]. split; [reflexivity|]. right. auto.
    - apply word_inv in E as (-> & F & L). apply graphic_visible in F. exists w. split; [reflexivity|]. left. auto. }
  unfold message in H.
  destruct (lit 60 l) as [s0|] eqn:E0; [|discriminate]. apply lit_inv in E0. subst l. cbn [bind] in H.
  destruct (number s0) as [[pri s1]|] eqn:E1; [|discriminate]. apply number_inv in E1 as (pw & -> & P1 & P2 & P3). cbn [bind] in H. destruct (191 <? pri) eqn:C1; [discriminate|].
  destruct (lit 62 s1) as [s2|] eqn:E2; [|discriminate]. apply lit_inv in E2. subst s1. cbn [bind] in H.
  destruct (number s2) as [[ver s3]|] eqn:E3; [|discriminate]. apply number_inv in E3 as (vw & -> & V1 & V2 & V3). cbn [bind] in H. destruct (ver =? 0) eqn:C2; [discriminate|].
  destruct (lit 32 s3) as [s4|] eqn:E4; [|discriminate]. apply lit_inv in E4. subst s3. cbn [bind] in H.
  destruct (maybe_nil None (fun s => bind (time_p s) (fun '(t, r) => Some (Some t, r))) s4) as [[ts s5]|] eqn:E5; [|discriminate]. cbn [bind] in H.
  assert (exists tw, s4 = tw ++ s5 /\ match ts with Some z => time_p (tw ++ s5) = Some (z, s5) | None => tw = [45] end) as (tw & -> & TT).
  { unfold maybe_nil in E5. destruct (nil_ahead s4) eqn:Z.
    - apply nil_inv in Z as (r' & ->). inversion E5; subst. exists [45]. auto.
    - destruct (time_p s4) as [[z r]|] eqn:Y; [|discriminate]. cbn [bind] in E5. inversion E5; subst. destruct (Suffix _ _ _ Y) as (w & ->). exists w. auto. }
  clear E5. destruct (lit 32 s5) as [s6|] eqn:E6; [|discriminate]. apply lit_inv in E6. subst s5. cbn [bind] in H.
  destruct (maybe_nil [] (word graphic 255) s6) as [[h s7]|] eqn:E7; [|discriminate]. apply W in E7 as (hw & -> & Hh). cbn [bind] in H.
  destruct (lit 32 s7) as [s8|] eqn:E8; [|discriminate]. apply lit_inv in E8. subst s7. cbn [bind] in H.
  destruct (maybe_nil [] (word graphic 48) s8) as [[a s9]|] eqn:E9; [|discriminate]. apply W in E9 as (aw & -> & Ha). cbn [bind] in H.
  destruct (lit 32 s9) as [s10|] eqn:E10; [|discriminate]. apply lit_inv in E10. subst s9. cbn [bind] in H.
  destruct (maybe_nil [] (word graphic 128) s10) as [[p s11]|] eqn:E11; [|discriminate]. apply W in E11 as (pp & -> & Hp). cbn [bind] in H.
  destruct (lit 32 s11) as [s12|] eqn:E12; [|discriminate]. apply lit_inv in E12. subst s11. cbn [bind] in H.
  destruct (maybe_nil [] (word graphic 32) s12) as [[i s13]|] eqn:E13; [|discriminate]. apply W in E13 as (iw & -> & Hi). cbn [bind] in H.
  destruct (lit 32 s13) as [s14|] eqn:E14; [|discriminate]. apply lit_inv in E14. subst s13. cbn [bind] in H.
  destruct (structured s14) as [rest|] eqn:E15; [|discriminate]. apply structured_inv in E15 as (d & -> & Hd). cbn [bind] in H.
  exists pw, vw, tw, hw, aw, pp, iw, d, rest. split; [reflexivity|].
  assert (exists m, f = {| facility := pri / 8; severity := pri mod 8; version := ver; stamp := ts; hostname := h; app_name := a; process_id := p; message_id := i; text_of := m |} /\
    match m with Some x => rest = 32 :: x \/ rest = 32 :: bom ++ x | None => rest = [] end) as (m & -> & Hm).
  { destruct rest as [|c rest]; [exists None; split; [congruence|reflexivity]|]. destruct (N.eq_dec c 32) as [->|C].
    - exists (Some (content rest)). split; [congruence|]. unfold content.
      destruct rest as [|x1 rest]; [left; reflexivity|]. destruct x1 as [|x1]; [left; reflexivity|]. repeat (destruct x1 as [x1|x1|]; try (left; reflexivity)).
      destruct rest as [|x2 rest]; [left; reflexivity|]. destruct x2 as [|x2]; [left; reflexivity|]. repeat (destruct x2 as [x2|x2|]; try (left; reflexivity)).
      destruct rest as [|x3 rest]; [left; reflexivity|]. destruct x3 as [|x3]; [left; reflexivity|]. repeat (destruct x3 as [x3|x3|]; try (left; reflexivity)).
      destruct rest as [|x4 rest]; [left; reflexivity|]. right. reflexivity.
    - exfalso. destruct c as [|c]; [discriminate|]. repeat (destruct c as [c|c|]; try discriminate; try congruence). }
  cbn [facility severity version stamp hostname app_name process_id message_id text_of].
  split; [assumption|]. split; [assumption|]. split; [rewrite P3; apply N.div_mod; discriminate|]. split; [apply N.lt_succ_r, N.div_lt_upper_bound; lia|].
  split; [pose proof (N.mod_lt pri 8); lia|]. split; [assumption|]. split; [assumption|]. split; [assumption|]. split; [lia|].
  split; [destruct ts; [eauto|assumption]|]. split; [assumption|]. split; [assumption|]. split; [assumption|]. split; [assumption|]. split; [tauto|]. exact Hm.
Qed.

(** * Every line becomes one event *)
Definition told (time_p : bytes -> option (Z * bytes)) (ls : list bytes) : list event := map (event_of time_p) (filter (fun l => match l with [] => false | _ => true end) ls).
Definition fields_in (es : list event) : list fields := flat_map (fun e => match e with Rfc5424 f => [f] | Unknown _ => [] end) es.
Definition lines_in (es : list event) : list bytes := flat_map (fun e => match e with Rfc5424 _ => [] | Unknown l => [l] end) es.
Definition got_fields (r : reader) : list fields := flat_map (fun s => match s with inl l => l | inr _ => [] end) (slices r).
Definition got_lines (r : reader) : list bytes := flat_map (fun s => match s with inl _ => [] | inr l => l end) (slices r).

Lemma got_finish : forall b r, got_fields (finish b r) = got_fields r ++ known r /\ got_lines (finish b r) = got_lines r ++ others r.
Proof.
  intros b r. unfold got_fields, got_lines, finish. cbn [slices]. rewrite !flat_map_app. destruct (known r) as [|k ks], (others r) as [|o os], b; cbn [app flat_map]; rewrite ?app_nil_r; auto.
Qed.
(** What a call does: it consumes a prefix of the lines. *)
Definition goes (time_p : bytes -> option (Z * bytes)) (ls : list bytes) (r : reader) (e : ending) (r' : reader) : Prop :=
  exists n, (n <= length ls)%nat /\ lines r' = skipn n ls /\
  got_fields r' ++ known r' = got_fields r ++ known r ++ fields_in (told time_p (firstn n ls)) /\
  got_lines r' ++ others r' = got_lines r ++ others r ++ lines_in (told time_p (firstn n ls)) /\
  (e <> Stall -> known r' = [] /\ others r' = []) /\ (e = End -> n = length ls).
Lemma fields_app : forall a b, fields_in (a ++ b) = fields_in a ++ fields_in b.
Proof. intros. apply flat_map_app. Qed.
Lemma lines_app : forall a b, lines_in (a ++ b) = lines_in a ++ lines_in b.
Proof. intros. apply flat_map_app. Qed.
Lemma loop_ok : forall time_p ls b size events waits r, lines r = ls -> let '(e, r') := loop time_p ls b size events waits r in goes time_p ls r e r'.
Proof.
  intros time_p. induction ls as [|l ls IH]; intros b size events waits r L.
  - assert (forall e, goes time_p [] r e (finish b (skip [] r))) as G.
    { intros e. exists 0%nat. destruct (got_finish b (skip [] r)) as [A B]. cbn [known others skip] in *. change (got_fields (skip [] r)) with (got_fields r) in *. change (got_lines (skip [] r)) with (got_lines r) in *.
      rewrite A, B. cbn. rewrite ?app_nil_r. repeat split; auto with arith. }
    destruct events; cbn [loop]; apply G.
  - assert (forall e, e <> End -> goes time_p (l :: ls) r e (finish b (skip (l :: ls) r))) as G.
    { intros e E. exists 0%nat. destruct (got_finish b (skip (l :: ls) r)) as [A B]. cbn [known others skip] in *. change (got_fields (skip (l :: ls) r)) with (got_fields r) in *.
      change (got_lines (skip (l :: ls) r)) with (got_lines r) in *. rewrite A, B. cbn. rewrite ?app_nil_r. repeat split; auto with arith; congruence. }
    assert (goes time_p (l :: ls) r Stall (skip (l :: ls) r)) as GS.
    { exists 0%nat. cbn. rewrite ?app_nil_r. change (got_fields (skip (l :: ls) r)) with (got_fields r). change (got_lines (skip (l :: ls) r)) with (got_lines r). repeat split; auto with arith; congruence. }
    destruct events as [|events]; cbn [loop]; [apply G; discriminate|].
    assert (let '(e, r') := match l with
          | [] => loop time_p ls b size (S events) (tl waits) (skip ls r)
          | _ => let r1 := add (event_of time_p l) ls r in
                 let r2 := if (size <=? rows (event_of time_p l) r1)%nat then finish b r1 else r1 in
                 loop time_p ls b size events (tl waits) r2
          end in goes time_p (l :: ls) r e r') as GL.
    { destruct l as [|c l].
      - specialize (IH b size (S events) (tl waits) (skip ls r) eq_refl). destruct (loop time_p ls b size (S events) (tl waits) (skip ls r)) as [e r'].
        destruct IH as (n & N & A & B & C & D & E). exists (S n). cbn [firstn skipn length]. repeat split; auto with arith; try apply D; auto.
      - set (ev := event_of time_p (c :: l)). cbv zeta.
        assert (forall r2, r2 = add ev ls r \/ r2 = finish b (add ev ls r) -> lines r2 = ls /\ got_fields r2 ++ known r2 = got_fields r ++ known r ++ fields_in [ev] /\ got_lines r2 ++ others r2 = got_lines r ++ others r ++ lines_in [ev]) as G2.
        { assert (got_fields (add ev ls r) ++ known (add ev ls r) = got_fields r ++ known r ++ fields_in [ev] /\ got_lines (add ev ls r) ++ others (add ev ls r) = got_lines r ++ others r ++ lines_in [ev] /\ lines (add ev ls r) = ls) as (A1 & A2 & A3).
          { destruct ev; cbn; rewrite ?app_nil_r; auto. }
          intros r2 [->| ->]; [auto|]. destruct (got_finish b (add ev ls r)) as [B1 B2]. rewrite B1, B2. cbn [known others finish lines]. rewrite !app_nil_r. auto. }
        set (r2 := if (size <=? rows ev (add ev ls r))%nat then finish b (add ev ls r) else add ev ls r).
        destruct (G2 r2) as (L2 & A2 & B2); [unfold r2; destruct (size <=? rows ev (add ev ls r))%nat; auto|].
        specialize (IH b size events (tl waits) r2 L2). destruct (loop time_p ls b size events (tl waits) r2) as [e r'].
        destruct IH as (n & N & A & B & C & D & E). exists (S n). cbn [firstn skipn length].
        replace (told time_p ((c :: l) :: firstn n ls)) with ([ev] ++ told time_p (firstn n ls)) by reflexivity. rewrite fields_app, lines_app.
        rewrite B, C, !app_assoc, A2, B2, <- !app_assoc. repeat split; auto with arith; try apply D; auto. }
    destruct (hd Now waits); [exact GL| |exact GS]. destruct (length (known r) + length (others r))%nat; [exact GL|apply G; discriminate].
Qed.
(** For all lines, sizes, numbers of events and schedules: the events the consumer got, and those held,
    are the events of the lines consumed, in order within each layout; at the end all lines are consumed
    and nothing is held. *)
Theorem C78_lines : forall time_p ls calls, let '(e, r) := run time_p calls (start ls) in
  exists n, (n <= length ls)%nat /\ lines r = skipn n ls /\
  got_fields r ++ known r = fields_in (told time_p (firstn n ls)) /\ got_lines r ++ others r = lines_in (told time_p (firstn n ls)) /\
  (e = End -> n = length ls /\ known r = [] /\ others r = []).
Proof.
  intros time_p ls0 calls.
  assert (forall calls r done, lines r = skipn done ls0 -> (done <= length ls0)%nat -> got_fields r ++ known r = fields_in (told time_p (firstn done ls0)) -> got_lines r ++ others r = lines_in (told time_p (firstn done ls0)) ->
    let '(e, r') := run time_p calls r in exists n, (n <= length ls0)%nat /\ lines r' = skipn n ls0 /\
    got_fields r' ++ known r' = fields_in (told time_p (firstn n ls0)) /\ got_lines r' ++ others r' = lines_in (told time_p (firstn n ls0)) /\ (e = End -> n = length ls0 /\ known r' = [] /\ others r' = [])) as G.
  2: { apply (G calls (start ls0) 0%nat); cbn; auto with arith. }
  clear calls. induction calls as [|[[[b size] events] waits] cs IH]; intros r done L K A B; cbn [run].
  - exists done. repeat split; auto; discriminate.
  - unfold read. pose proof (loop_ok time_p (lines r) b size events waits r eq_refl) as H. destruct (loop time_p (lines r) b size events waits r) as [e r'].
    destruct H as (n & N & L' & A' & B' & D & E).
    assert (lines r' = skipn (done + n) ls0) as L2 by (rewrite L', L; clear; revert done; induction ls0 as [|x l IH]; intros done; [rewrite !skipn_nil; reflexivity|]; destruct done; [reflexivity|]; cbn; apply IH).
    assert (done + n <= length ls0)%nat as K2 by (rewrite L, skipn_length in N; lia).
    assert (told time_p (firstn (done + n) ls0) = told time_p (firstn done ls0) ++ told time_p (firstn n (lines r))) as T.
    { unfold told. rewrite <- map_app, <- filter_app. f_equal. f_equal. rewrite L. clear. revert done. induction ls0 as [|x l IH]; intros done; [rewrite skipn_nil, !firstn_nil; reflexivity|].
      destruct done; [reflexivity|]. cbn. f_equal. apply IH. }
    assert (got_fields r' ++ known r' = fields_in (told time_p (firstn (done + n) ls0))) as A2 by (rewrite A', T, fields_app, <- A, app_assoc; reflexivity).
    assert (got_lines r' ++ others r' = lines_in (told time_p (firstn (done + n) ls0))) as B2 by (rewrite B', T, lines_app, <- B, app_assoc; reflexivity).
    destruct e; try (apply (IH r' (done + n)%nat); assumption).
    exists (done + n)%nat. split; [assumption|]. split; [assumption|]. split; [assumption|]. split; [assumption|]. intros _. specialize (E eq_refl). rewrite L, skipn_length in E. split; [lia|]. apply D. discriminate.
Qed.
(** No slice is empty or larger than asked for. *)
Definition slice_length (s : list fields + list bytes) : nat := match s with inl l => length l | inr l => length l end.
Definition fits (size : nat) (r : reader) : Prop := (length (known r) < size)%nat /\ (length (others r) < size)%nat /\ Forall (fun s => (1 <= slice_length s <= size)%nat) (slices r).
Lemma finish_fits : forall b size r, (0 < size)%nat -> (length (known r) <= size)%nat -> (length (others r) <= size)%nat -> Forall (fun s => (1 <= slice_length s <= size)%nat) (slices r) -> fits size (finish b r).
Proof.
  intros b size r Z K O F. unfold fits, finish. cbn [known others slices]. split; [cbn; lia|]. split; [cbn; lia|]. apply Forall_app. split; [assumption|].
  assert (Forall (fun s => (1 <= slice_length s <= size)%nat) (match known r with [] => [] | l => [inl l] end)) as A by (destruct (known r); [apply Forall_nil|apply Forall_cons; [cbn in *; lia|apply Forall_nil] ]).
  assert (Forall (fun s => (1 <= slice_length s <= size)%nat) (match others r with [] => [] | l => [inr l] end)) as B by (destruct (others r); [apply Forall_nil|apply Forall_cons; [cbn in *; lia|apply Forall_nil] ]).
  destruct b; apply Forall_app; auto.
Qed.
Lemma loop_fits : forall time_p ls b size events waits r, (0 < size)%nat -> fits size r -> fits size (snd (loop time_p ls b size events waits r)).
Proof.
  intros time_p. induction ls as [|l ls IH]; intros b size events waits r Z (K & O & F).
  - destruct events; cbn [loop snd]; apply finish_fits; cbn; auto with arith; lia.
  - assert (fits size (finish b (skip (l :: ls) r))) as G by (apply finish_fits; cbn; auto; lia).
    destruct events as [|events]; cbn [loop]; [exact G|].
    assert (fits size (snd match l with
          | [] => loop time_p ls b size (S events) (tl waits) (skip ls r)
          | _ => let r1 := add (event_of time_p l) ls r in
                 let r2 := if (size <=? rows (event_of time_p l) r1)%nat then finish b r1 else r1 in
                 loop time_p ls b size events (tl waits) r2
          end)) as GL.
    { destruct l as [|c l]; [apply IH; [assumption|repeat split; assumption]|]. cbv zeta. apply IH; [assumption|]. destruct (event_of time_p (c :: l)) as [f|u]; cbn [add rows known others].
      - destruct (Nat.leb_spec size (length (known r ++ [f]))) as [H|H]; rewrite app_length in H; cbn in H.
        + apply finish_fits; cbn [known others slices]; rewrite ?app_length; cbn; auto; lia.
        + repeat split; cbn [known others slices]; rewrite ?app_length; cbn; auto; lia.
      - destruct (Nat.leb_spec size (length (others r ++ [u]))) as [H|H]; rewrite app_length in H; cbn in H.
        + apply finish_fits; cbn [known others slices]; rewrite ?app_length; cbn; auto; lia.
        + repeat split; cbn [known others slices]; rewrite ?app_length; cbn; auto; lia. }
    destruct (hd Now waits); [exact GL| |repeat split; assumption]. destruct (length (known r) + length (others r))%nat; [exact GL|exact G].
Qed.
Theorem C78_sizes : forall time_p ls size calls, (0 < size)%nat -> Forall (fun c => snd (fst (fst c)) = size) calls -> Forall (fun s => (1 <= slice_length s <= size)%nat) (slices (snd (run time_p calls (start ls)))).
Proof.
  intros time_p ls size calls Z F. assert (fits size (start ls)) as I by (repeat split; cbn; auto). revert I. generalize (start ls). induction calls as [|[[[b n] events] waits] cs IH]; intros r I; [apply I|].
  inversion F as [|? ? E F']; subst. cbn [fst snd] in *. cbn [run read]. pose proof (loop_fits time_p (lines r) b n events waits r Z I) as L.
  destruct (loop time_p (lines r) b n events waits r) as [e r']. cbn [snd] in L. destruct e; try (apply IH; assumption). apply L.
Qed.
(** A call that does not stall hands over everything. *)
Theorem C78_flush : forall time_p c r, let '(e, r') := read time_p c r in e <> Stall -> known r' = [] /\ others r' = [].
Proof.
  intros time_p [[[b size] events] waits] r. unfold read. pose proof (loop_ok time_p (lines r) b size events waits r eq_refl) as H. destruct (loop time_p (lines r) b size events waits r) as [e r'].
  destruct H as (n & _ & _ & _ & _ & D & _). exact D.
Qed.
(** Each line that is not empty becomes one event: with fields, or with the line itself. *)
Theorem C78_one : forall time_p ls, length (told time_p ls) = length (filter (fun l => match l with [] => false | _ => true end) ls) /\
  forall e, In e (told time_p ls) -> exists l, In l ls /\ l <> [] /\ (e = Unknown l /\ message time_p l = None \/ exists f, e = Rfc5424 f /\ message time_p l = Some f).
Proof.
  intros time_p ls. split; [apply map_length|]. intros e H. apply in_map_iff in H as (l & E & I). apply filter_In in I as [I N]. exists l. split; [assumption|]. split; [intros ->; discriminate|].
  subst e. unfold event_of. destruct (message time_p l); eauto.
Qed.

(** * Where the code differs from RFC 5424 *)
Definition no_time (s : bytes) : option (Z * bytes) := None.
(** A message without structured data and text is not recognized. *)
Theorem C78_bare_refuted : exists m, m_data m = None /\ m_text m = None /\ m_pri m = 34 /\ wire m = chars "<34>1 - host su - ID47 -" /\ forall time_p, event_of time_p (wire m) = Unknown (wire m).
Proof.
  exists {| m_pri := 34; m_version := 1; m_time := None; m_host := Some (chars "host"); m_app := Some (chars "su"); m_process := None; m_id := Some (chars "ID47"); m_data := None; m_bom := false; m_text := None |}.
  repeat split.
Qed.
(** Neither is one whose structured data has an element without parameters. *)
Theorem C78_element_refuted : exists m, m_data m = Some [(chars "ex", [])] /\ wire m = chars "<34>1 - host su - ID47 [ex] text" /\ forall time_p, event_of time_p (wire m) = Unknown (wire m).
Proof.
  exists {| m_pri := 34; m_version := 1; m_time := None; m_host := Some (chars "host"); m_app := Some (chars "su"); m_process := None; m_id := Some (chars "ID47"); m_data := Some [(chars "ex", [])]; m_bom := false; m_text := Some (chars "text") |}.
  repeat split.
Qed.
(** Nor one with a value of a parameter that is not plain ASCII, here e with an accent. *)
Theorem C78_utf8_refuted : exists m, m_data m = Some [(chars "ex", [(chars "k", [195; 169])])] /\ forall time_p, event_of time_p (wire m) = Unknown (wire m).
Proof.
  exists {| m_pri := 34; m_version := 1; m_time := None; m_host := Some (chars "host"); m_app := None; m_process := None; m_id := None; m_data := Some [(chars "ex", [(chars "k", [195; 169])])]; m_bom := false; m_text := Some (chars "text") |}.
  repeat split.
Qed.
(** Structured data is not in the event: two messages that differ in it become the same event. *)
Theorem C78_data_refuted : exists m m', m_data m <> m_data m' /\ fit no_time m None /\ fit no_time m' None /\ forall time_p, event_of time_p (wire m) = event_of time_p (wire m').
Proof.
  exists {| m_pri := 34; m_version := 1; m_time := None; m_host := None; m_app := None; m_process := None; m_id := None; m_data := Some [(chars "ex", [(chars "k", chars "a]")])]; m_bom := false; m_text := Some (chars "text") |},
    {| m_pri := 34; m_version := 1; m_time := None; m_host := None; m_app := None; m_process := None; m_id := None; m_data := Some [(chars "ex", [(chars "k", chars "b")])]; m_bom := false; m_text := Some (chars "text") |}.
  split; [discriminate|]. split; [|split; [|reflexivity] ]; constructor; cbn [m_pri m_version m_time m_host m_app m_process m_id m_data m_bom m_text]; try exact Logic.I; try lia;
    try (split; [discriminate|]; repeat constructor; cbn; try discriminate; lia); left; discriminate.
Qed.

(** * Examples *)
Definition example_mail : mail := {| m_pri := 165; m_version := 1; m_time := None; m_host := Some (chars "mymachine.example.com"); m_app := Some (chars "evntslog"); m_process := None; m_id := Some (chars "ID47");
  m_data := Some [(chars "exampleSDID@32473", [(chars "iut", chars "3"); (chars "eventSource", chars "App\]")])]; m_bom := true; m_text := Some (chars "An event - of some kind") |}.
Example C78_message_example : fit no_time example_mail None /\ exists f, message no_time (wire example_mail) = Some f /\ facility f = 20 /\ severity f = 5 /\ app_name f = chars "evntslog" /\ process_id f = [] /\
  text_of f = Some (chars "An event - of some kind").
Proof.
  split; [|eexists; split; [vm_compute; reflexivity|]; vm_compute; auto].
  constructor; cbn [m_pri m_version m_time m_host m_app m_process m_id m_data m_bom m_text example_mail header_word]; try exact Logic.I; try lia; try discriminate;
    try (split; [discriminate|]; split; [discriminate|]; split; [cbn; lia|]; unfold visible; repeat constructor; discriminate).
  split; [discriminate|]. repeat constructor; cbn; unfold visible; try discriminate; lia.
Qed.
(** A time of four digits, as a parser that meets the hypotheses. *)
Definition year_p (s : bytes) : option (Z * bytes) := match word isdigit 4 s with Some (w, r) => Some (Z.of_N (num w), r) | None => None end.
Example C78_time_example : is_time year_p (Some (chars "2003")) (Some 2003%Z) /\ (forall s t r, year_p s = Some (t, r) -> exists w, s = w ++ r) /\
  option_map stamp (message year_p (chars "<34>1 2003 host su - ID47 - text")) = Some (Some 2003%Z).
Proof.
  split; [|split].
  - split; [discriminate|]. split; [discriminate|]. split; [repeat constructor; discriminate|]. intros r. reflexivity.
  - intros s t r H. unfold year_p in H. destruct (word isdigit 4 s) as [[w r']|] eqn:E; [|discriminate]. inversion H; subst. apply word_inv in E as (-> & _). eauto.
  - vm_compute. reflexivity.
Qed.
Example C78_lines_example : let '(e, r) := run no_time [(true, 2%nat, 9%nat, [Now; Stalled]); (true, 2%nat, 9%nat, [])] (start [chars "one"; []; chars "<34>1 - - - - - - text"; chars "two"]) in
  e = End /\ got_lines r = [chars "one"; chars "two"] /\ option_map text_of (hd_error (got_fields r)) = Some (Some (chars "text")) /\ length (slices r) = 2%nat.
Proof. vm_compute. auto. Qed.

Definition assumptions_syslog := (C78_message, C78_only, C78_lines, C78_sizes, C78_flush, C78_one, C78_bare_refuted, C78_element_refuted, C78_utf8_refuted, C78_data_refuted).
Print Assumptions assumptions_syslog.
