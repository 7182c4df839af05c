(** JSON (RFC 8259), what a JSON document says about events, and lemmas for C69. *)
From Coq Require Import List ZArith NArith Bool Arith Lia String Ascii.
From Coq Require Import ZifyBool ZifyNat ZifyN.
From Coq Require Import Init.Datatypes Floats.SpecFloat Permutation.
From Verif Require Import AddressModel DataModel DataProofs EscapeModel EscapeProofs LiteralModel LiteralProofs CalendarModel CsvModel CsvProofs ImporterModel ImporterProofs.
From Verif Require Import JsonModel.
Import ListNotations.
Local Notation length := List.length.
Open Scope N_scope.

(** * JSON *)

(** White space (RFC 8259, section 2). *)
Definition white (c : N) : bool := (c =? 32) || (c =? 9) || (c =? 10) || (c =? 13).
Fixpoint blank (s : text) : text := match s with c :: r => if white c then blank r else s | [] => [] end.
Definition digit (c : N) : bool := (48 <=? c) && (c <=? 57).
Fixpoint span (s : text) : text * text :=
  match s with
  | c :: r => if digit c then let '(a, b) := span r in (c :: a, b) else ([], s)
  | [] => ([], [])
  end.
(** Numbers (section 6). *)
Definition j_frac (s : text) : option (text * text) :=
  match s with
  | c :: r => if c =? 46 then match span r with ([], _) => None | x => Some x end else Some ([], s)
  | [] => Some ([], [])
  end.
Definition j_exp (s : text) : option (option Z * text) :=
  match s with
  | c :: r =>
      if (c =? 101) || (c =? 69) then
        let '(neg, r') := match r with d :: r' => if d =? 45 then (true, r') else if d =? 43 then (false, r') else (false, r) | [] => (false, []) end in
        match span r' with
        | ([], _) => None
        | (ds, r'') => Some (Some (if neg then (- Z.of_N (weigh ds))%Z else Z.of_N (weigh ds)), r'')
        end
      else Some (None, s)
  | [] => Some (None, [])
  end.
Definition j_number (s : text) : option (json * text) :=
  let '(neg, s1) := match s with c :: r => if c =? 45 then (true, r) else (false, s) | [] => (false, []) end in
  match span s1 with
  | ([], _) => None
  | (d :: w, s2) =>
      if (d =? 48) && negb (match w with [] => true | _ => false end) then None
      else match j_frac s2 with
           | None => None
           | Some (f, s3) => match j_exp s3 with None => None | Some (e, s4) => Some (JNum neg (d :: w) f e, s4) end
           end
  end.
(** Strings (section 7), without pairs of surrogates; characters beyond the control characters
    stand for themselves. *)
Definition j_hex (c : N) : option N :=
  if (48 <=? c) && (c <=? 57) then Some (c - 48)
  else if (65 <=? c) && (c <=? 70) then Some (c - 55)
  else if (97 <=? c) && (c <=? 102) then Some (c - 87)
  else None.
Definition utf8 (p : N) : option text :=
  if p <? 128 then Some [p]
  else if p <? 2048 then Some [192 + p / 64; 128 + p mod 64]
  else if (55296 <=? p) && (p <? 57344) then None
  else Some [224 + p / 4096; 128 + p / 64 mod 64; 128 + p mod 64].
Definition two (c : N) : option N :=
  if (c =? 34) || (c =? 92) || (c =? 47) then Some c
  else if c =? 98 then Some 8 else if c =? 102 then Some 12 else if c =? 110 then Some 10
  else if c =? 114 then Some 13 else if c =? 116 then Some 9 else None.
Fixpoint j_string (s : text) : option (text * text) :=
  match s with
  | [] => None
  | c :: r =>
      if c =? 34 then Some ([], r)
      else if c <? 32 then None
      else if c =? 92 then
        match r with
        | [] => None
        | d :: r' =>
            if d =? 117 then
              match r' with
              | h1 :: h2 :: h3 :: h4 :: r'' =>
                  match j_hex h1, j_hex h2, j_hex h3, j_hex h4 with
                  | Some a, Some b, Some c, Some d =>
                      match utf8 (((a * 16 + b) * 16 + c) * 16 + d) with
                      | Some u => match j_string r'' with Some (t, q) => Some (u ++ t, q) | None => None end
                      | None => None
                      end
                  | _, _, _, _ => None
                  end
              | _ => None
              end
            else match two d with
                 | Some e => match j_string r' with Some (t, q) => Some (e :: t, q) | None => None end
                 | None => None
                 end
        end
      else match j_string r with Some (t, q) => Some (c :: t, q) | None => None end
  end.
(** Literals. *)
Fixpoint word (w s : text) : option text :=
  match w, s with
  | [], _ => Some s
  | a :: w', b :: s' => if a =? b then word w' s' else None
  | _ :: _, [] => None
  end.
(** Values, elements and members (sections 3 to 5); [n] bounds the number of steps. *)
Fixpoint j_value (n : nat) (s : text) : option (json * text) :=
  match n with
  | O => None
  | S n' =>
      match blank s with
      | [] => None
      | c :: r =>
          if c =? 34 then option_map (fun p => (JStr (fst p), snd p)) (j_string r)
          else if c =? 91 then
            match blank r with
            | [] => None
            | d :: r' => if d =? 93 then Some (JArr [], r') else option_map (fun p => (JArr (fst p), snd p)) (j_items n' r)
            end
          else if c =? 123 then
            match blank r with
            | [] => None
            | d :: r' => if d =? 125 then Some (JObj [], r') else option_map (fun p => (JObj (fst p), snd p)) (j_members n' r)
            end
          else if c =? 116 then option_map (fun q => (JBool true, q)) (word (chars "rue") r)
          else if c =? 102 then option_map (fun q => (JBool false, q)) (word (chars "alse") r)
          else if c =? 110 then option_map (fun q => (JNull, q)) (word (chars "ull") r)
          else j_number (c :: r)
      end
  end
with j_items (n : nat) (s : text) : option (list json * text) :=
  match n with
  | O => None
  | S n' =>
      match j_value n' s with
      | None => None
      | Some (j, r) =>
          match blank r with
          | [] => None
          | c :: r' => if c =? 93 then Some ([j], r')
                       else if c =? 44 then option_map (fun p => (j :: fst p, snd p)) (j_items n' r')
                       else None
          end
      end
  end
with j_members (n : nat) (s : text) : option (list (text * json) * text) :=
  match n with
  | O => None
  | S n' =>
      match blank s with
      | [] => None
      | q :: r0 =>
          if q =? 34 then
            match j_string r0 with
            | None => None
            | Some (k, r1) =>
                match blank r1 with
                | [] => None
                | c :: r2 =>
                    if c =? 58 then
                      match j_value n' r2 with
                      | None => None
                      | Some (j, r) =>
                          match blank r with
                          | [] => None
                          | c :: r' => if c =? 125 then Some ([(k, j)], r')
                                       else if c =? 44 then option_map (fun p => ((k, j) :: fst p, snd p)) (j_members n' r')
                                       else None
                          end
                      end
                    else None
                end
            end
          else None
      end
  end.
(** A document: a value between white space. *)
Definition document (s : text) : option json :=
  match j_value (S (length s)) s with
  | Some (j, r) => match blank r with [] => Some j | _ => None end
  | None => None
  end.

(** * What JSON says about values *)

(** A real as a number: exact if it is an integer, and with at most six digits behind the point that
    are off by no more than half a millionth otherwise. *)
Definition real_says (x : double) (j : json) : Prop :=
  match x with
  | S754_zero s => j = JNum s [48] [] None
  | S754_infinity _ | S754_nan => j = JNull
  | S754_finite s m e =>
      exists w f, j = JNum s w f None /\ decimal_digits w /\ Forall (fun c => 48 <= c <= 57) f /\ (length f <= 6)%nat /\
        let a := (Z.of_N (weigh w) * 10 ^ 6 + Z.of_N (weigh f) * 10 ^ (6 - Z.of_nat (length f)))%Z in
        if (0 <=? e)%Z then a = (Z.pos m * 2 ^ e * 10 ^ 6)%Z else (2 * Z.abs (Z.pos m * 10 ^ 6 - a * 2 ^ (- e)) <= 2 ^ (- e))%Z
  end.
Section Says.
  Variable A : arith.
  Variable numeric : bool.
  Inductive mirrors : data -> json -> Prop :=
  | m_none : mirrors DNone JNull
  | m_bool b : mirrors (DBool b) (JBool b)
  | m_int z w : decimal_digits w -> Z.of_N (weigh w) = Z.abs z -> mirrors (DInt z) (JNum (z <? 0)%Z w [] None)
  | m_count n w : decimal_digits w -> weigh w = n -> mirrors (DCount n) (JNum false w [] None)
  | m_enum n w : decimal_digits w -> weigh w = n -> mirrors (DEnum n) (JNum false w [] None)
  | m_real p j : real_says (of_bits p) j -> mirrors (DReal p) j
  | m_seconds z j : numeric = true -> real_says (ddiv (of_Z z) (of_Z 1000000000)) j -> mirrors (DDuration z) j
  | m_duration z : numeric = false -> mirrors (DDuration z) (JStr (a_show_dur A z))
  | m_time z : mirrors (DTime z) (JStr (a_show_time A z))
  | m_string s : mirrors (DString s) (JStr s)
  | m_pattern s : mirrors (DPattern s) (JStr s)
  | m_address a : mirrors (DAddress a) (JStr (show_addr A a))
  | m_subnet s : mirrors (DSubnet s) (JStr (show_addr A (sn_net s) ++ 47 :: digits (sn_length s)))
  | m_list l js : Forall2 mirrors l js -> mirrors (DList l) (JArr js)
  | m_map l ms : Forall2 (fun p m => mirrors (fst p) (JStr (fst m)) /\ mirrors (snd p) (snd m)) l ms -> mirrors (DMap l) (JObj ms)
  | m_record l ms : Forall2 (fun p m => fst p = fst m /\ mirrors (snd p) (snd m)) l ms -> mirrors (DRecord l) (JObj ms).

  (** An event: an object with the fields of its layout in order, records as objects, and the cells
      of the row one after another. Enumerations in columns go by name. *)
  Definition cell_says (t : column) (v : data) (j : json) : Prop :=
    match t, v with
    | KEnum names, DEnum n => j = match nth_error names (N.to_nat n) with Some x => JStr x | None => JNull end
    | _, _ => mirrors v j
    end.
  Inductive field_says : lfield -> list data -> text * json -> Prop :=
  | f_leaf n t v j : cell_says t v j -> field_says (Leaf n t) [v] (n, j)
  | f_node n fs row o : fields_say fs row o -> field_says (Node n fs) row (n, JObj o)
  with fields_say : list lfield -> list data -> list (text * json) -> Prop :=
  | f_nil : fields_say [] [] []
  | f_cons f fs r1 r2 m ms : field_says f r1 m -> fields_say fs r2 ms -> fields_say (f :: fs) (r1 ++ r2) (m :: ms).

  (** The values for which this is possible: reals that do not look like integers when they are cut
      off, and objects for which all keys are strings. *)
  Definition fair_real (x : double) : Prop :=
    match x with S754_finite _ m e => integral m e = true \/ (millionths m e mod 1000000 <> 0)%Z | _ => True end.
  Definition plain_text (t : text) : Prop := Forall (fun c => 32 <= c /\ c <> 34 /\ c <> 92) t.
  Definition string_like (v : data) : Prop :=
    match v with DString _ | DPattern _ | DTime _ | DAddress _ | DSubnet _ => True | DDuration _ => numeric = false | _ => False end.
  Fixpoint fair (v : data) : Prop :=
    match v with
    | DReal p => fair_real (of_bits p)
    | DDuration z => if numeric then fair_real (ddiv (of_Z z) (of_Z 1000000000)) else plain_text (a_show_dur A z)
    | DTime z => plain_text (a_show_time A z)
    | DList l => (fix all l := match l with [] => True | x :: r => fair x /\ all r end) l
    | DMap l => (fix all l := match l with [] => True | (k, x) :: r => (string_like k /\ fair k /\ fair x) /\ all r end) l
    | DRecord l => (fix all l := match l with [] => True | (_, x) :: r => fair x /\ all r end) l
    | _ => True
    end.

  (** * Lemmas *)

  (** What may follow a value. *)
  Definition after (r : text) : Prop := match r with [] => True | c :: _ => digit c = false /\ c <> 46 /\ c <> 101 /\ c <> 69 end.

  Lemma string_plain : forall t r, plain_text t -> j_string (t ++ 34 :: r) = Some (t, r).
  Proof.
    induction t as [|c t IH]; intros r H; [reflexivity|]. pose proof (Forall_inv H) as (H1 & H2 & H3). cbn [app j_string].
    destruct (N.eqb_spec c 34); [contradiction|]. destruct (N.ltb_spec c 32); [lia|]. destruct (N.eqb_spec c 92); [contradiction|].
    rewrite IH; [reflexivity|exact (Forall_inv_tail H)].
  Qed.
  Lemma hex_nibble : forall x, x < 16 -> j_hex (hex_digit x) = Some x.
  Proof. intros x H. unfold hex_digit, j_hex. destruct (x <? 10) eqn:E; [replace ((48 <=? 48 + x) && (48 + x <=? 57)) with true by lia; f_equal; lia|].
    replace ((48 <=? 65 + (x - 10)) && (65 + (x - 10) <=? 57)) with false by lia. replace ((65 <=? 65 + (x - 10)) && (65 + (x - 10) <=? 70)) with true by lia. f_equal. lia. Qed.
  Lemma string_step : forall c r, j_string (json_escaper c ++ r) = match j_string r with Some (t, q) => Some (c :: t, q) | None => None end.
  Proof.
    intros c r. unfold json_escaper, c_quote, c_backslash.
    destruct (N.eqb_spec c 34) as [->|N1]; [reflexivity|]. destruct (N.eqb_spec c 92) as [->|N2]; [reflexivity|]. cbn [orb].
    destruct (N.eqb_spec c 8) as [->|N3]; [reflexivity|]. destruct (N.eqb_spec c 12) as [->|N4]; [reflexivity|].
    destruct (N.eqb_spec c 13) as [->|N5]; [reflexivity|]. destruct (N.eqb_spec c 10) as [->|N6]; [reflexivity|].
    destruct (N.eqb_spec c 9) as [->|N7]; [reflexivity|]. destruct (iscntrl c) eqn:E; cbn [negb].
    - unfold iscntrl in E. unfold byte_to_hex, c_u, c_zero.
      assert (H : N.land (N.shiftr c 4) 15 < 16 /\ N.land c 15 < 16 /\ N.land (N.shiftr c 4) 15 * 16 + N.land c 15 = c /\ c < 128).
      { change 15 with (N.ones 4). rewrite !N.land_ones, N.shiftr_div_pow2. change (2 ^ 4) with 16. lia. }
      destruct H as (H1 & H2 & H3 & H4). set (hi := N.land (N.shiftr c 4) 15) in *. set (lo := N.land c 15) in *.
      cbn [app j_string]. change (92 =? 34) with false. change (92 <? 32) with false. change (92 =? 92) with true. change (117 =? 117) with true. cbv iota beta.
      rewrite (hex_nibble hi H1), (hex_nibble lo H2). change (j_hex 48) with (Some 0). cbv iota beta. unfold utf8.
      replace (((0 * 16 + 0) * 16 + hi) * 16 + lo) with c by lia. replace (c <? 128) with true by lia. destruct (j_string r) as [ [t q]|]; reflexivity.
    - unfold iscntrl in E. cbn [app j_string]. destruct (N.eqb_spec c 34); [contradiction|]. destruct (N.ltb_spec c 32); [lia|]. destruct (N.eqb_spec c 92); [contradiction|reflexivity].
  Qed.
  Lemma string_reads : forall s r, j_string (escape json_escaper s ++ 34 :: r) = Some (s, r).
  Proof. unfold escape. induction s as [|c s IH]; intros r; [reflexivity|]. cbn [flat_map]. rewrite <- app_assoc, string_step, IH. reflexivity. Qed.
  Lemma qstr_app : forall s r, qstr s ++ r = 34 :: escape json_escaper s ++ 34 :: r.
  Proof. intros. unfold qstr, json_escape, c_quote. cbn [app]. f_equal. now rewrite <- app_assoc. Qed.
  Lemma qstr_reads : forall n s r, j_value (S n) (qstr s ++ r) = Some (JStr s, r).
  Proof. intros. rewrite qstr_app. cbn [j_value blank]. change (white 34) with false. cbv iota beta. change (34 =? 34) with true. cbv iota. now rewrite string_reads. Qed.
  Lemma plain_reads : forall n t r, plain_text t -> j_value (S n) (34 :: t ++ 34 :: r) = Some (JStr t, r).
  Proof. intros. cbn [j_value blank]. change (white 34) with false. cbv iota beta. change (34 =? 34) with true. cbv iota. now rewrite string_plain. Qed.

  (** ** Numbers *)
  Lemma digit_range : forall c, digit c = true <-> 48 <= c <= 57.
  Proof. intros c. unfold digit. lia. Qed.
  Lemma span_app : forall ds r, Forall (fun c => 48 <= c <= 57) ds -> match r with [] => True | c :: _ => digit c = false end -> span (ds ++ r) = (ds, r).
  Proof.
    induction ds as [|d ds IH]; intros r H R.
    - destruct r as [|c r]; [reflexivity|]. cbn [app span]. now rewrite R.
    - cbn [app span]. pose proof (Forall_inv H) as H1. apply digit_range in H1. rewrite H1. now rewrite (IH r (Forall_inv_tail H) R).
  Qed.
  Lemma val_weigh : forall ds a, digits_val a ds = a * 10 ^ N.of_nat (length ds) + weigh ds.
  Proof.
    unfold digits_val. induction ds as [|d ds IH]; intros a; [cbn; lia|]. cbn [fold_left weigh length]. rewrite IH. unfold ch_0. rewrite Nat2N.inj_succ, N.pow_succ_r'. lia.
  Qed.
  Lemma print_lead : forall fuel n acc, n <> 0 -> n < 2 ^ N.of_nat fuel -> exists c ds, print_digits fuel n acc = c :: ds /\ c <> 48.
  Proof.
    induction fuel as [|f IH]; intros n acc N0 H; [cbn in H; lia|]. cbn [print_digits]. destruct (N.ltb_spec n 10).
    - eexists _, _. split; [reflexivity|]. unfold ch_0. rewrite N.mod_small by lia. lia.
    - apply IH; [lia|]. rewrite Nat2N.inj_succ, N.pow_succ_r' in H. remember (2 ^ N.of_nat f) as q. lia.
  Qed.
  (** The decimal digits of a number, without superfluous zeros. *)
  Definition proper (w : text) : Prop := decimal_digits w /\ match w with 48 :: _ :: _ => False | _ => True end.
  Lemma print_proper : forall n, proper (print_N n) /\ weigh (print_N n) = n.
  Proof.
    intros n. destruct (print_N_spec n) as (c & ds & E & F & V). rewrite val_weigh in V.
    assert (D : decimal_digits (print_N n)). { rewrite E. split; [discriminate|]. eapply Forall_impl; [|exact F]. intros x X. unfold is_digit in X. lia. }
    split; [split; [exact D|]|rewrite E; lia]. destruct (N.eq_dec n 0) as [->|N0]; [exact I|].
    destruct (print_lead (S (N.size_nat n)) n [] N0) as (c' & ds' & E' & C').
    { assert (n < 2 ^ N.size n) by apply N.size_gt. rewrite Nat2N.inj_succ, N.pow_succ_r'. replace (N.of_nat (N.size_nat n)) with (N.size n); [lia|].
      destruct n as [|p]; auto. clear. cbn [N.size N.size_nat]. induction p as [p IH|p IH|]; cbn [Pos.size Pos.size_nat]; auto; rewrite Nat2N.inj_succ, <- IH; reflexivity. }
    unfold print_N. rewrite E'. destruct (N.eqb_spec c' 48) as [->|X]; [contradiction|]. clear - C'.
    destruct c' as [|p]; [exact I|]. repeat (destruct p as [p|p|]; try exact I). destruct ds'; [exact I|]. now apply C'.
  Qed.
  Lemma proper_head : forall d w, proper (d :: w) -> (d =? 48) && negb (match w with [] => true | _ => false end) = false.
  Proof. intros d w [_ H]. destruct (N.eqb_spec d 48) as [->|]; [|reflexivity]. destruct w; [reflexivity|contradiction]. Qed.

  Definition minus (neg : bool) : text := if neg then [45] else [].
  Definition tail (f : text) : text := match f with [] => [] | _ => 46 :: f end.
  Lemma number_reads : forall n neg w f r, proper w -> Forall (fun c => 48 <= c <= 57) f -> after r ->
    j_value (S n) (minus neg ++ w ++ tail f ++ r) = Some (JNum neg w f None, r).
  Proof.
    intros n neg w f r W F R. destruct w as [|d w]; [destruct W as [ [W _] _]; now contradiction W|]. pose proof W as [ [_ D] _].
    pose proof (Forall_inv D) as D1. cbv beta in D1.
    assert (T : match tail f ++ r with [] => True | c :: _ => digit c = false end). { destruct f; [destruct r; [exact I|apply R]|reflexivity]. }
    assert (Q : j_number (minus neg ++ (d :: w) ++ tail f ++ r) = Some (JNum neg (d :: w) f None, r)).
    { unfold j_number.
      replace (match minus neg ++ (d :: w) ++ tail f ++ r with c :: r0 => if c =? 45 then (true, r0) else (false, minus neg ++ (d :: w) ++ tail f ++ r) | [] => (false, []) end) with (neg, (d :: w) ++ tail f ++ r).
      2: { destruct neg; cbn [minus app]; [reflexivity|]. destruct (N.eqb_spec d 45); [lia|reflexivity]. }
      rewrite (span_app (d :: w) (tail f ++ r) D T). cbv iota beta. rewrite (proper_head d w W).
      assert (X : j_exp r = Some (None, r)). { destruct r as [|c r]; [reflexivity|]. destruct R as (R1 & R2 & R3 & R4). unfold j_exp. destruct (N.eqb_spec c 101); [contradiction|]. destruct (N.eqb_spec c 69); [contradiction|reflexivity]. }
      assert (Y : j_frac (tail f ++ r) = Some (f, r)).
      { destruct f as [|x f]; cbn [tail app].
        - destruct r as [|c r]; [reflexivity|]. destruct R as (R1 & R2 & R3 & R4). unfold j_frac. destruct (N.eqb_spec c 46); [contradiction|reflexivity].
        - unfold j_frac. change (46 =? 46) with true. cbv iota. change (x :: f ++ r) with ((x :: f) ++ r). rewrite span_app; [reflexivity|exact F|]. destruct r; [exact I|apply R]. }
      now rewrite Y, X. }
    rewrite <- Q. clear Q. destruct neg; cbn [minus app j_value blank]; [reflexivity|].
    assert (W0 : white d = false) by (unfold white; lia). rewrite W0.
    destruct (N.eqb_spec d 34); [lia|]. destruct (N.eqb_spec d 91); [lia|]. destruct (N.eqb_spec d 123); [lia|].
    destruct (N.eqb_spec d 116); [lia|]. destruct (N.eqb_spec d 102); [lia|]. destruct (N.eqb_spec d 110); [lia|reflexivity].
  Qed.
  (** The text of a value: it does not start with white space or a closing bracket, and it is read
      whatever follows. *)
  Definition reads (t : text) (j : json) : Prop :=
    match t with [] => False | c :: _ => white c = false /\ c <> 93 end /\
    forall n r, (length t <= n)%nat -> after r -> j_value n (t ++ r) = Some (j, r).
  Lemma reads_step : forall t j, match t with [] => False | c :: _ => white c = false /\ c <> 93 end -> (forall n r, after r -> j_value (S n) (t ++ r) = Some (j, r)) -> reads t j.
  Proof. intros t j H G. split; [exact H|]. intros [|n] r L R; [destruct t; [contradiction|cbn in L; lia]|now apply G]. Qed.
  Lemma number_start : forall neg w r, decimal_digits w -> match minus neg ++ w ++ r with [] => False | c :: _ => white c = false /\ c <> 93 end.
  Proof. intros neg w r [D1 D2]. destruct neg; [now split|]. destruct w as [|d w]; [contradiction|]. pose proof (Forall_inv D2) as D. cbn [minus app]. cbv beta in D. unfold white. lia. Qed.
  Lemma integer_reads : forall z, exists w, reads (int_text z) (JNum (z <? 0)%Z w [] None) /\ decimal_digits w /\ Z.of_N (weigh w) = Z.abs z.
  Proof.
    intros z. exists (print_N (Z.to_N (Z.abs z))). destruct (print_proper (Z.to_N (Z.abs z))) as [P1 P2]. split; [|split; [apply P1|rewrite P2; lia] ].
    replace (int_text z) with (minus (z <? 0)%Z ++ print_N (Z.to_N (Z.abs z)) ++ tail []).
    2: { unfold int_text. destruct (z <? 0)%Z eqn:E; cbn [minus app tail]; rewrite app_nil_r; [replace (Z.abs z) with (- z)%Z by lia|replace (Z.abs z) with z by lia]; reflexivity. }
    apply reads_step; [apply number_start, P1|]. intros n r R. rewrite <- !app_assoc. apply number_reads; [exact P1|constructor|exact R].
  Qed.
  Lemma count_reads : forall x, exists w, reads (print_N x) (JNum false w [] None) /\ decimal_digits w /\ weigh w = x.
  Proof.
    intros x. exists (print_N x). destruct (print_proper x) as [P1 P2]. split; [|split; [apply P1|exact P2] ].
    apply reads_step. { pose proof (number_start false (print_N x) [] (proj1 P1)) as H. now rewrite app_nil_r in H. } intros n r R. exact (number_reads n false _ [] r P1 ltac:(constructor) R).
  Qed.

  (** ** Reals *)
  Lemma weigh_app : forall a b, weigh (a ++ b) = weigh a * 10 ^ N.of_nat (length b) + weigh b.
  Proof. induction a as [|c a IH]; intros b; [reflexivity|]. cbn [app weigh]. rewrite IH, app_length, Nat2N.inj_add, N.pow_add_r. lia. Qed.
  Lemma strip_zeros : forall s, exists k, s = strip s ++ repeat 48 k.
  Proof.
    induction s as [|c s [k IH] ]; [now exists 0%nat|]. cbn [strip]. destruct (strip s) as [|d t] eqn:E.
    - destruct (N.eqb_spec c 48) as [->|N0]; [exists (S k)|exists k]; cbn [app repeat] in *; now rewrite IH at 1.
    - exists k. rewrite IH at 1. reflexivity.
  Qed.
  Lemma weigh_zeros : forall k, weigh (repeat 48 k) = 0.
  Proof. induction k as [|k IH]; [reflexivity|]. cbn [repeat weigh]. rewrite IH. lia. Qed.
  Lemma strip_spec : forall s, Forall (fun c => 48 <= c <= 57) s -> Forall (fun c => 48 <= c <= 57) (strip s) /\ (length (strip s) <= length s)%nat /\
    weigh s = weigh (strip s) * 10 ^ N.of_nat (length s - length (strip s)).
  Proof.
    intros s H. destruct (strip_zeros s) as [k E]. assert (L : length s = (length (strip s) + k)%nat) by (rewrite E at 1; now rewrite app_length, repeat_length).
    split; [|split; [lia|] ]. { rewrite E in H. apply Forall_app in H. apply H. }
    replace (length s - length (strip s))%nat with k by lia. rewrite E at 1. rewrite weigh_app, weigh_zeros, repeat_length. lia.
  Qed.
  Lemma six_spec : forall x, (0 <= x < 1000000)%Z -> Forall (fun c => 48 <= c <= 57) (six x) /\ length (six x) = 6%nat /\ weigh (six x) = Z.to_N x.
  Proof.
    intros x H. unfold six. cbn [map].
    replace (x / 100)%Z with (x / 10 / 10)%Z by (rewrite Z.div_div by lia; reflexivity). replace (x / 1000)%Z with (x / 10 / 10 / 10)%Z by (rewrite !Z.div_div by lia; reflexivity).
    replace (x / 10000)%Z with (x / 10 / 10 / 10 / 10)%Z by (rewrite !Z.div_div by lia; reflexivity).
    replace (x / 100000)%Z with (x / 10 / 10 / 10 / 10 / 10)%Z by (rewrite !Z.div_div by lia; reflexivity). rewrite Z.div_1_r.
    assert (T : forall y, exists q r, (y / 10 = q /\ y mod 10 = r /\ y = 10 * q + r /\ 0 <= r < 10)%Z)
      by (intros y; exists (y / 10)%Z, (y mod 10)%Z; repeat split; try apply Z.mod_pos_bound; try apply Z.div_mod; easy).
    destruct (T x) as (q1 & r1 & -> & -> & D1 & R1). destruct (T q1) as (q2 & r2 & -> & -> & D2 & R2). destruct (T q2) as (q3 & r3 & -> & -> & D3 & R3).
    destruct (T q3) as (q4 & r4 & -> & -> & D4 & R4). destruct (T q4) as (q5 & r5 & -> & -> & D5 & R5). destruct (T q5) as (q6 & r6 & _ & -> & D6 & R6). clear T.
    split; [|split; [reflexivity|] ].
    - repeat apply Forall_cons; try apply Forall_nil; lia.
    - assert (Q : q6 = 0%Z) by lia. subst q6. cbn [weigh length].
      change (10 ^ N.of_nat 5) with 100000. change (10 ^ N.of_nat 4) with 10000. change (10 ^ N.of_nat 3) with 1000. change (10 ^ N.of_nat 2) with 100. change (10 ^ N.of_nat 1) with 10. change (10 ^ N.of_nat 0) with 1.
      rewrite !(N.add_comm 48), !N.add_sub.
      apply N2Z.inj. rewrite !N2Z.inj_add, !N2Z.inj_mul, !Z2N.id by lia. lia.
  Qed.
  Lemma round_near : forall a b, (0 <= a)%Z -> (0 < b)%Z -> (0 <= round_even a b)%Z /\ (2 * Z.abs (a - round_even a b * b) <= b)%Z.
  Proof.
    intros a b A0 B0. unfold round_even. pose proof (Z.div_mod a b ltac:(lia)) as D. pose proof (Z.mod_pos_bound a b B0) as M. pose proof (Z.div_pos a b A0 B0) as P.
    destruct (Z.compare_spec (2 * (a mod b)) b); [destruct (Z.even _)| |]; split; try lia; nia.
  Qed.
  Lemma millionths_spec : forall m e, (0 <= millionths m e)%Z /\
    if (0 <=? e)%Z then millionths m e = (Z.pos m * 2 ^ e * 10 ^ 6)%Z else (2 * Z.abs (Z.pos m * 10 ^ 6 - millionths m e * 2 ^ (- e)) <= 2 ^ (- e))%Z.
  Proof.
    intros m e. unfold millionths. change (10 ^ 6)%Z with 1000000%Z. destruct (Z.leb_spec 0 e).
    - split; [|reflexivity]. pose proof (Z.pow_nonneg 2 e ltac:(lia)). nia.
    - apply round_near; [lia|]. apply Z.pow_pos_nonneg; lia.
  Qed.
  Lemma integral_millionths : forall m e, integral m e = true -> (millionths m e mod 1000000 = 0)%Z.
  Proof.
    intros m e H. unfold integral in H. unfold millionths. destruct (Z.leb_spec 0 e) as [L|L]; cbn [orb] in H.
    - apply Z.mod_mul. lia.
    - apply Z.eqb_eq in H. assert (B : (0 < 2 ^ (- e))%Z) by (apply Z.pow_pos_nonneg; lia). apply Z.mod_divide in H; [|lia]. destruct H as [q Q]. unfold round_even. rewrite Q.
      replace (q * 2 ^ (- e) * 1000000)%Z with (q * 1000000 * 2 ^ (- e))%Z by lia. rewrite Z.mod_mul, Z.div_mul by lia. change (2 * 0)%Z with 0%Z.
      destruct (Z.compare_spec 0 (2 ^ (- e))); try lia.
  Qed.
  Lemma real_reads : forall x, fair_real x -> exists j, reads (real_text x) j /\ real_says x j.
  Proof.
    intros x F. destruct x as [s|s| |s m e]; cbn [real_text real_says].
    - assert (P : proper [48]) by (split; [split; [discriminate|constructor; [lia|constructor] ]|exact I]).
      eexists. split; [|reflexivity]. fold (minus s). apply reads_step; [apply (number_start s [48] []); apply P|]. intros n r R. rewrite <- app_assoc. now apply (number_reads n s [48] [] r).
    - exists JNull. split; [|reflexivity]. apply reads_step; [now split|reflexivity].
    - exists JNull. split; [|reflexivity]. apply reads_step; [now split|reflexivity].
    - cbn [fair_real] in F. destruct (millionths_spec m e) as [M0 M1]. set (a := millionths m e) in *. destruct (print_proper (Z.to_N (a / 1000000))) as [W1 W2]. set (w := print_N (Z.to_N (a / 1000000))) in *.
      assert (Q : (0 <= a / 1000000)%Z) by (apply Z.div_pos; lia). pose proof (Z.mod_pos_bound a 1000000 ltac:(lia)) as B. pose proof (Z.div_mod a 1000000 ltac:(lia)) as D.
      fold (minus s). destruct (integral m e) eqn:E.
      + pose proof (integral_millionths m e E) as Z0. fold a in Z0. eexists. split. { apply reads_step; [apply number_start, W1|]. intros n r R. rewrite <- !app_assoc. apply (number_reads n s w [] r); [exact W1|constructor|exact R]. }
        exists w, []. split; [reflexivity|]. split; [apply W1|]. split; [constructor|]. split; [cbn; lia|]. cbn [weigh length].
        replace (Z.of_N (weigh w) * 10 ^ 6 + Z.of_N 0 * 10 ^ (6 - Z.of_nat 0))%Z with a by (rewrite W2; change (10 ^ 6)%Z with 1000000%Z; lia). exact M1.
      + destruct F as [F|F]; [discriminate|]. destruct (six_spec (a mod 1000000) B) as (S1 & S2 & S3). destruct (strip_spec (six (a mod 1000000)) S1) as (T1 & T2 & T3). set (f := strip (six (a mod 1000000))) in *.
        assert (NE : f <> []). { intros N0. rewrite N0, S3 in T3. cbn [weigh] in T3. lia. }
        eexists. split. { replace (46 :: f) with (tail f) by (destruct f; [contradiction|reflexivity]). apply reads_step; [apply number_start, W1|]. intros n r R. rewrite <- !app_assoc. apply (number_reads n s w f r); [exact W1|exact T1|exact R]. }
        exists w, f. split; [reflexivity|]. split; [apply W1|]. split; [exact T1|]. split; [lia|].
        replace (Z.of_N (weigh w) * 10 ^ 6 + Z.of_N (weigh f) * 10 ^ (6 - Z.of_nat (length f)))%Z with a; [exact M1|].
        rewrite W2. rewrite S2, S3 in T3. replace (10 ^ (6 - Z.of_nat (length f)))%Z with (Z.of_N (10 ^ N.of_nat (6 - length f))) by (rewrite N2Z.inj_pow, nat_N_Z; f_equal; lia).
        change (10 ^ 6)%Z with 1000000%Z. lia.
  Qed.

  (** ** Arrays and objects *)
  Lemma value_blank : forall n s, j_value n (32 :: s) = j_value n s.
  Proof. intros [|n] s; reflexivity. Qed.
  Lemma after_in : forall c r, In c [44; 58; 93; 125] -> after (c :: r).
  Proof. intros c r H. cbn [In] in H. cbn [after]. unfold digit. lia. Qed.
  Lemma items_read : forall ts js, Forall2 reads ts js -> ts <> [] -> forall n r, (length (join_text (chars ", ") ts) < n)%nat ->
    j_items n (join_text (chars ", ") ts ++ 93 :: r) = Some (js, r).
  Proof.
    intros ts js H. induction H as [|t j ts js H1 H IH]; intros NE n r L; [contradiction|]. clear NE. destruct n as [|n]; [lia|]. cbn [j_items join_text].
    cbn [join_text] in L. rewrite app_length in L. rewrite <- app_assoc. destruct ts as [|t2 ts].
    - inversion H; subst. cbn [flat_map app]. rewrite (proj2 H1) by (cbn in *; try lia; apply after_in; cbn; auto). reflexivity.
    - cbn [flat_map] in *. change (chars ", ") with [44; 32] in *. rewrite (proj2 H1).
      2: lia. 2: { cbn [app]. apply after_in. cbn; auto. }
      cbn [app blank]. change (white 44) with false. cbv iota beta. change (44 =? 93) with false. change (44 =? 44) with true. cbv iota.
      assert (X : j_items n (32 :: (t2 ++ flat_map (fun y : text => [44; 32] ++ y) ts) ++ 93 :: r) = Some (js, r)).
      { specialize (IH ltac:(discriminate) n r). cbn [join_text] in IH. rewrite <- IH by (rewrite !app_length in L; rewrite app_length; cbn [length] in L; lia).
        destruct n; [reflexivity|]. cbn [j_items]. now rewrite value_blank. }
      cbn [app] in X. rewrite X. reflexivity.
  Qed.
  Lemma array_reads : forall ts js, Forall2 reads ts js -> reads (array ts) (JArr js).
  Proof.
    intros ts js H. split; [now split|]. intros n r L R. unfold array in *. cbn [length] in L. rewrite app_length in L. cbn [length] in L. destruct n as [|n]; [lia|]. cbn [app j_value blank]. change (white 91) with false. cbv iota beta. change (91 =? 34) with false. change (91 =? 91) with true. cbv iota.
    destruct ts as [|t ts]. { inversion H; subst. reflexivity. }
    assert (S : exists c q, join_text (chars ", ") (t :: ts) = c :: q /\ white c = false /\ c <> 93).
    { inversion H as [|? ? ? ? H1 H2]; subst. destruct t as [|c t]; [destruct (proj1 H1)|]. exists c. eexists. split; [reflexivity|]. apply H1. }
    rewrite <- app_assoc. pose proof (items_read (t :: ts) js H ltac:(discriminate) n r ltac:(lia)) as X. change ([93] ++ r) with (93 :: r).
    destruct S as (c & q & S1 & S2 & S3). rewrite S1 in *. cbn [app blank] in *. rewrite S2. destruct (N.eqb_spec c 93); [contradiction|]. rewrite X. reflexivity.
  Qed.
  Definition member_reads (t : text) (m : text * json) : Prop :=
    exists q v, t = 34 :: q ++ 58 :: 32 :: v /\ (forall r, j_string (q ++ r) = Some (fst m, r)) /\ reads v (snd m).
  Lemma members_read : forall ts ms, Forall2 member_reads ts ms -> ts <> [] -> forall n r, (length (join_text (chars ", ") ts) < n)%nat ->
    j_members n (join_text (chars ", ") ts ++ 125 :: r) = Some (ms, r).
  Proof.
    intros ts ms H. induction H as [|t m ts ms H1 H IH]; intros NE n r L; [contradiction|]. clear NE. destruct n as [|n]; [lia|]. destruct H1 as (q & v & -> & H1 & H2). destruct m as [k j]. cbn [fst snd] in *.
    cbn [join_text] in *. rewrite app_length in L. cbn [length] in L. rewrite app_length in L. cbn [length] in L.
    change ((34 :: q ++ 58 :: 32 :: v) ++ flat_map (fun y : text => chars ", " ++ y) ts) with (34 :: (q ++ 58 :: 32 :: v) ++ flat_map (fun y : text => chars ", " ++ y) ts).
    rewrite <- app_assoc. cbn [j_members app blank]. change (white 34) with false. cbv iota beta. change (34 =? 34) with true. cbv iota. rewrite <- !app_assoc. cbn [app]. rewrite H1. cbv iota beta. cbn [blank]. change (white 58) with false. cbv iota beta. change (58 =? 58) with true. cbv iota. rewrite value_blank.
    destruct ts as [|t2 ts].
    - inversion H; subst. cbn [flat_map app]. rewrite app_nil_r, (proj2 H2) by (try lia; apply after_in; cbn; auto). reflexivity.
    - cbn [flat_map] in *. change (chars ", ") with [44; 32] in *. rewrite <- app_assoc, (proj2 H2).
      2: lia. 2: { cbn [app]. apply after_in. cbn; auto. }
      cbn [app blank]. change (white 44) with false. cbv iota beta. change (44 =? 125) with false. change (44 =? 44) with true. cbv iota.
      assert (X : j_members n (32 :: (t2 ++ flat_map (fun y : text => [44; 32] ++ y) ts) ++ 125 :: r) = Some (ms, r)).
      { specialize (IH ltac:(discriminate) n r). cbn [join_text] in IH. rewrite <- IH by (rewrite !app_length in L; rewrite app_length; cbn [length] in L; lia).
        destruct n; reflexivity. }
      cbn [app] in X. rewrite X. reflexivity.
  Qed.
  Lemma braces_read : forall ts ms, Forall2 member_reads ts ms -> reads (braces ts) (JObj ms).
  Proof.
    intros ts ms H. split; [now split|]. intros n r L R. unfold braces in *. cbn [length] in L. rewrite app_length in L. cbn [length] in L. destruct n as [|n]; [lia|]. cbn [app j_value blank]. change (white 123) with false. cbv iota beta. change (123 =? 34) with false. change (123 =? 91) with false. change (123 =? 123) with true. cbv iota.
    destruct ts as [|t ts]. { inversion H; subst. reflexivity. }
    assert (S : exists q, join_text (chars ", ") (t :: ts) = 34 :: q).
    { inversion H as [|? ? ? ? H1 H2]; subst. destruct H1 as (q & v & -> & _). eexists. reflexivity. }
    rewrite <- app_assoc. pose proof (members_read (t :: ts) ms H ltac:(discriminate) n r ltac:(lia)) as X. change ([125] ++ r) with (125 :: r).
    destruct S as (q & S1). rewrite S1 in *. cbn [app blank] in *. change (white 34) with false. cbv iota beta. change (34 =? 125) with false. cbv iota. rewrite X. reflexivity.
  Qed.

  (** ** Values *)
  Lemma qstr_value : forall s, reads (qstr s) (JStr s).
  Proof. intros s. apply reads_step; [now split|]. intros. apply qstr_reads. Qed.
  Lemma plain_value : forall t, plain_text t -> reads (34 :: t ++ [34]) (JStr t).
  Proof. intros t H. apply reads_step; [now split|]. intros n r R. cbn [app]. rewrite <- app_assoc. now apply plain_reads. Qed.
  Lemma key_reads : forall v, string_like v -> fair v -> exists q s, jprint A numeric v = 34 :: q /\ (forall r, j_string (q ++ r) = Some (s, r)) /\ mirrors v (JStr s).
  Proof.
    intros v L F. assert (Q : forall s, exists q, qstr s = 34 :: q /\ forall r, j_string (q ++ r) = Some (s, r)).
    { intros s. eexists. split; [reflexivity|]. intros r. rewrite <- app_assoc. apply string_reads. }
    assert (P : forall t r, plain_text t -> j_string ((t ++ [34]) ++ r) = Some (t, r)). { intros t r H. rewrite <- app_assoc. now apply string_plain. }
    destruct v; cbn [string_like] in L; try contradiction; cbn [jprint fair] in *.
    - rewrite L in *. eexists _, _. split; [reflexivity|]. split; [intros r; now apply P|]. now constructor.
    - eexists _, _. split; [reflexivity|]. split; [intros r; now apply P|]. now constructor.
    - match goal with |- context [qstr ?s] => destruct (Q s) as (q & Q1 & Q2) end. eexists q, _. split; [exact Q1|]. split; [exact Q2|]. constructor.
    - match goal with |- context [qstr ?s] => destruct (Q s) as (q & Q1 & Q2) end. eexists q, _. split; [exact Q1|]. split; [exact Q2|]. constructor.
    - match goal with |- context [qstr ?s] => destruct (Q s) as (q & Q1 & Q2) end. eexists q, _. split; [exact Q1|]. split; [exact Q2|]. constructor.
    - match goal with |- context [qstr ?s] => destruct (Q s) as (q & Q1 & Q2) end. eexists q, _. split; [exact Q1|]. split; [exact Q2|]. constructor.
  Qed.
  Lemma value_reads : forall v, fair v -> exists j, reads (jprint A numeric v) j /\ mirrors v j.
  Proof.
    induction v as [v Hv|xs IH|xs IH|xs IH] using data_rect'; intros F.
    - destruct v; try contradiction; cbn [jprint fair] in *.
      + exists JNull. split; [|constructor]. apply reads_step; [now split|reflexivity].
      + exists (JBool b). split; [|constructor]. apply reads_step; [destruct b; now split|]. intros. destruct b; reflexivity.
      + destruct (integer_reads z) as (w & W1 & W2 & W3). eexists. split; [exact W1|]. now constructor.
      + destruct (count_reads n) as (w & W1 & W2 & W3). eexists. split; [exact W1|]. now constructor.
      + destruct (real_reads _ F) as (j & J1 & J2). eexists. split; [exact J1|]. now constructor.
      + destruct numeric eqn:E.
        * destruct (real_reads _ F) as (j & J1 & J2). eexists. split; [exact J1|]. now constructor.
        * eexists. split; [now apply plain_value|]. now apply m_duration.
      + eexists. split; [now apply plain_value|]. constructor.
      + eexists. split; [apply qstr_value|]. constructor.
      + eexists. split; [apply qstr_value|]. constructor.
      + eexists. split; [apply qstr_value|]. constructor.
      + eexists. split; [apply qstr_value|]. constructor.
      + destruct (count_reads n) as (w & W1 & W2 & W3). eexists. split; [exact W1|]. now constructor.
    - cbn [jprint]. assert (X : exists js, Forall2 reads (map (jprint A numeric) xs) js /\ Forall2 mirrors xs js).
      { cbn [fair] in F. induction xs as [|x xs IH2]; [exists []; split; constructor|]. destruct F as [F1 F2]. destruct (Forall_inv IH F1) as (j & J1 & J2). destruct (IH2 (Forall_inv_tail IH) F2) as (js & K1 & K2).
        exists (j :: js). split; constructor; assumption. }
      destruct X as (js & X1 & X2). eexists. split; [apply array_reads; exact X1|]. now constructor.
    - cbn [jprint]. assert (X : exists ms, Forall2 member_reads (map (fun p => fst p ++ chars ": " ++ snd p) (map (fun p => (jprint A numeric (fst p), jprint A numeric (snd p))) xs)) ms /\ Forall2 (fun p m => mirrors (fst p) (JStr (fst m)) /\ mirrors (snd p) (snd m)) xs ms).
      { cbn [fair] in F. induction xs as [|[k x] xs IH2]; [exists []; split; constructor|]. destruct F as [ (F0 & F1 & F2) F3]. pose proof (Forall_inv IH) as [_ I2]. destruct (I2 F2) as (j & J1 & J2). destruct (IH2 (Forall_inv_tail IH) F3) as (ms & K1 & K2).
        destruct (key_reads k F0 F1) as (q & s & Q1 & Q2 & Q3). exists ((s, j) :: ms). split; constructor; try assumption; [|now split].
        cbn [fst snd]. exists q, (jprint A numeric x). cbn [fst snd]. rewrite Q1. split; [reflexivity|]. now split. }
      destruct X as (ms & X1 & X2). eexists. split; [apply braces_read; exact X1|]. now constructor.
    - cbn [jprint]. assert (X : exists ms, Forall2 member_reads (map (fun p => fst p ++ chars ": " ++ snd p) (map (fun p => (qstr (fst p), jprint A numeric (snd p))) xs)) ms /\ Forall2 (fun p m => fst p = fst m /\ mirrors (snd p) (snd m)) xs ms).
      { cbn [fair] in F. induction xs as [|[k x] xs IH2]; [exists []; split; constructor|]. destruct F as [F2 F3]. pose proof (Forall_inv IH) as I2. destruct (I2 F2) as (j & J1 & J2). destruct (IH2 (Forall_inv_tail IH) F3) as (ms & K1 & K2).
        exists ((k, j) :: ms). split; constructor; try assumption; [|now split].
        cbn [fst snd]. exists (escape json_escaper k ++ [34]), (jprint A numeric x). cbn [fst snd]. split; [reflexivity|]. split; [|exact J1]. intros r. rewrite <- app_assoc. apply string_reads. }
      destruct X as (ms & X1 & X2). eexists. split; [apply braces_read; exact X1|]. now constructor.
  Qed.

  (** ** Events *)
  Section LfieldInd.
    Variable P : lfield -> Prop.
    Hypothesis Hl : forall n t, P (Leaf n t).
    Hypothesis Hn : forall n fs, Forall P fs -> P (Node n fs).
    Fixpoint lfield_ind' (f : lfield) : P f :=
      match f with
      | Leaf n t => Hl n t
      | Node n fs => Hn n fs ((fix go (l : list lfield) : Forall P l := match l with [] => Forall_nil P | x :: r => @Forall_cons _ P x r (lfield_ind' x) (go r) end) fs)
      end.
  End LfieldInd.
  (** The columns of a layout, each with the names of the fields that lead to it. *)
  Fixpoint cols (f : lfield) : list (list text * column) :=
    match f with
    | Leaf n t => [([n], t)]
    | Node n fs => map (fun c => (n :: fst c, snd c)) (flat_map cols fs)
    end.
  Definition columns (fs : list lfield) : list (list text * column) := flat_map cols fs.
  (** The name of a column: the names of the fields with dots between them. *)
  Definition dotted (p : list text) : text := join_text [46] p.
  Lemma dotted_cons : forall n p, p <> [] -> dotted (n :: p) = n ++ 46 :: dotted p.
  Proof. intros n p H. destruct p as [|q p]; [contradiction|]. reflexivity. Qed.
  Lemma cols_paths : forall f, Forall (fun c => fst c <> []) (cols f).
  Proof. destruct f as [n t|n fs]; cbn [cols]; [repeat constructor; discriminate|]. apply Forall_forall. intros c I. apply in_map_iff in I. destruct I as (x & <- & _). discriminate. Qed.
  Lemma columns_paths : forall fs, Forall (fun c => fst c <> []) (columns fs).
  Proof. intros fs. apply Forall_forall. intros c I. apply in_flat_map in I. destruct I as (f & _ & I). pose proof (cols_paths f) as H. rewrite Forall_forall in H. now apply H. Qed.
  Lemma flatten_field_cols : forall f prefix, flatten_field prefix f = map (fun c => (prefix ++ dotted (fst c), snd c)) (cols f).
  Proof.
    induction f as [n t|n fs IH] using lfield_ind'; intros prefix; cbn [flatten_field cols]; [cbn [map fst snd dotted join_text flat_map]; now rewrite app_nil_r|].
    rewrite map_map. cbn [fst snd]. transitivity (map (fun c => (prefix ++ n ++ 46 :: dotted (fst c), snd c)) (columns fs)).
    - unfold columns. induction fs as [|f fs IH2]; [reflexivity|]. cbn [flat_map]. rewrite map_app, (Forall_inv IH), IH2 by exact (Forall_inv_tail IH). f_equal. apply map_ext. intros c. f_equal. rewrite <- !app_assoc. reflexivity.
    - apply map_ext_in. intros c I. pose proof (columns_paths fs) as H. rewrite Forall_forall in H. now rewrite dotted_cons by now apply H.
  Qed.
  Lemma flatten_columns : forall fs, flatten fs = map (fun c => (dotted (fst c), snd c)) (columns fs).
  Proof. intros fs. unfold flatten, columns. induction fs as [|f fs IH]; [reflexivity|]. cbn [flat_map]. now rewrite map_app, flatten_field_cols, IH. Qed.

  Lemma canonical_fair : forall t v, fair v -> fair (canonical t v).
  Proof. intros t v F. destruct t; try exact F. destruct v; try exact F. cbn [canonical]. destruct (nth_error _ _); exact I. Qed.
  Lemma canonical_says : forall t v j, mirrors (canonical t v) j -> cell_says t v j.
  Proof. intros t v j H. destruct t; try exact H. destruct v; try exact H. cbn [canonical cell_says] in *. destruct (nth_error _ _); inversion H; subst; reflexivity. Qed.
  Lemma member_text : forall n v j, reads v j -> member_reads (qstr n ++ chars ": " ++ v) (n, j).
  Proof. intros n v j H. exists (escape json_escaper n ++ [34]), v. split; [reflexivity|]. split; [|exact H]. intros r. rewrite <- app_assoc. apply string_reads. Qed.
  Definition field_fine (f : lfield) : Prop := forall row rest, length row = length (cols f) -> Forall fair row ->
    exists t m, field_text A numeric f (row ++ rest) = Some (t, rest) /\ field_says f row m /\ member_reads t m.
  Lemma fields_fine : forall fs, Forall field_fine fs -> forall row rest, length row = length (columns fs) -> Forall fair row ->
    exists ts ms, each (field_text A numeric) fs (row ++ rest) = Some (ts, rest) /\ fields_say fs row ms /\ Forall2 member_reads ts ms.
  Proof.
    intros fs H. induction H as [|f fs H1 H IH]; intros row rest L F.
    - destruct row; [|discriminate]. exists [], []. split; [reflexivity|]. split; constructor.
    - unfold columns in L. cbn [flat_map] in L. rewrite app_length in L. fold (columns fs) in L. rewrite <- (firstn_skipn (length (cols f)) row) in *. set (r1 := firstn (length (cols f)) row) in *. set (r2 := skipn (length (cols f)) row) in *.
      rewrite app_length in L. assert (L1 : length r1 = length (cols f)) by (unfold r1; rewrite firstn_length; unfold r1, r2 in L; rewrite <- app_length, firstn_skipn in L; lia).
      apply Forall_app in F. destruct F as [F1 F2]. destruct (H1 r1 (r2 ++ rest) L1 F1) as (t & m & T1 & T2 & T3). destruct (IH r2 rest ltac:(lia) F2) as (ts & ms & U1 & U2 & U3).
      exists (t :: ts), (m :: ms). split; [|split; [now constructor|now constructor] ]. rewrite <- app_assoc. cbn [each]. rewrite T1. fold (each (field_text A numeric)). now rewrite U1.
  Qed.
  Lemma all_fine : forall f, field_fine f.
  Proof.
    induction f as [n t|n fs IH] using lfield_ind'; intros row rest L F; cbn [cols] in L.
    - destruct row as [|v [|w row] ]; try discriminate. pose proof (Forall_inv F) as F1. destruct (value_reads _ (canonical_fair t v F1)) as (j & J1 & J2).
      exists (qstr n ++ chars ": " ++ jprint A numeric (canonical t v)), (n, j). split; [reflexivity|]. split; [constructor; now apply canonical_says|now apply member_text].
    - rewrite map_length in L. destruct (fields_fine fs IH row rest L F) as (ts & ms & T1 & T2 & T3).
      exists (qstr n ++ chars ": " ++ braces ts), (n, JObj ms). split; [|split; [now constructor|apply member_text; now apply braces_read] ].
      cbn [field_text]. now rewrite T1.
  Qed.
  Lemma document_reads : forall t j, reads t j -> document t = Some j.
  Proof. intros t j [H1 H2]. unfold document. pose proof (H2 (S (length t)) [] ltac:(lia) I) as X. rewrite app_nil_r in X. now rewrite X. Qed.
  (** The layout as it is exported. *)
  Definition flat_layout (fs : list lfield) : list lfield := map (fun c => Leaf (dotted (fst c)) (snd c)) (columns fs).
  Lemma flat_columns : forall fs, columns (flat_layout fs) = map (fun c => ([dotted (fst c)], snd c)) (columns fs).
  Proof. intros fs. unfold flat_layout, columns at 1. induction (columns fs) as [|c cs IH]; [reflexivity|]. cbn [map flat_map cols app]. now rewrite IH. Qed.
  Lemma line_reads : forall flat fs row, length row = length (columns fs) -> Forall fair row ->
    exists t o, line A numeric flat fs row = Some t /\ document t = Some (JObj o) /\ fields_say (if flat then flat_layout fs else fs) row o.
  Proof.
    intros flat fs row L F. unfold line. replace (map (fun p => Leaf (fst p) (snd p)) (flatten fs)) with (flat_layout fs) by (rewrite flatten_columns, map_map; reflexivity).
    set (fs' := if flat then flat_layout fs else fs). assert (L' : length row = length (columns fs')) by (destruct flat; subst fs'; [rewrite flat_columns, map_length|]; exact L).
    destruct (fields_fine fs' (proj2 (Forall_forall _ _) (fun f _ => all_fine f)) row [] L' F) as (ts & ms & T1 & T2 & T3). rewrite app_nil_r in T1.
    exists (braces ts), ms. rewrite T1. split; [reflexivity|]. split; [apply document_reads; now apply braces_read|exact T2].
  Qed.

  (** ** No line ends inside of lines *)
  Definition above (t : text) : Prop := Forall (fun c => 32 <= c) t.
  Lemma above_app : forall a b, above a -> above b -> above (a ++ b).
  Proof. intros. apply Forall_app. now split. Qed.
  Lemma above_digits : forall ds, Forall (fun c => 48 <= c <= 57) ds -> above ds.
  Proof. intros ds H. eapply Forall_impl; [|exact H]. cbv beta. lia. Qed.
  Lemma above_print : forall n, above (print_N n).
  Proof. intros n. destruct (print_proper n) as [ [ [_ P] _] _]. now apply above_digits. Qed.
  Lemma above_lit : forall s, forallb (fun c => 32 <=? c) s = true -> above s.
  Proof. intros s H. apply Forall_forall. intros c I. rewrite forallb_forall in H. specialize (H c I). lia. Qed.
  Lemma above_qstr : forall s, above (qstr s).
  Proof.
    intros s. unfold qstr, json_escape. constructor; [unfold c_quote; lia|]. apply above_app; [|now apply above_lit]. unfold escape. induction s as [|c s IH]; [constructor|]. cbn [flat_map]. apply above_app; [|exact IH].
    unfold json_escaper, c_quote, c_backslash. destruct (N.eqb_spec c 34) as [->|N1]; [now apply above_lit|]. destruct (N.eqb_spec c 92) as [->|N2]; [now apply above_lit|]. cbn [orb].
    repeat match goal with |- above (if ?b then _ else _) => destruct b eqn:?; [first [now apply above_lit | idtac]|] end.
    - constructor; [unfold iscntrl in *; lia|constructor].
    - unfold byte_to_hex, hex_digit, c_u, c_zero. repeat (constructor; [match goal with |- context [if ?b then _ else _] => destruct b | _ => idtac end; lia|]). constructor.
  Qed.
  Lemma above_join : forall ts, Forall above ts -> above (join_text (chars ", ") ts).
  Proof.
    intros ts H. destruct H as [|t ts H1 H]; [constructor|]. cbn [join_text]. apply above_app; [exact H1|]. induction H as [|x r X H IH]; [constructor|]. cbn [flat_map]. apply above_app; [apply above_app; [now apply above_lit|exact X]|exact IH].
  Qed.
  Lemma above_braces : forall ts, Forall above ts -> above (braces ts).
  Proof. intros ts H. constructor; [lia|]. apply above_app; [now apply above_join|now apply above_lit]. Qed.
  Lemma above_real : forall x, above (real_text x).
  Proof.
    intros [s|s| |s m e]; cbn [real_text]; try (now apply above_lit); [destruct s; now apply above_lit|]. apply above_app; [destruct s; now apply above_lit|]. apply above_app; [apply above_print|]. destruct (integral m e); [constructor|]. constructor; [lia|].
    apply above_digits. apply strip_spec. apply six_spec. apply Z.mod_pos_bound. lia.
  Qed.
  Lemma above_plain : forall t, plain_text t -> above (34 :: t ++ [34]).
  Proof. intros t H. constructor; [lia|]. apply above_app; [|now apply above_lit]. eapply Forall_impl; [|exact H]. cbv beta. lia. Qed.
  Lemma above_value : forall v, fair v -> above (jprint A numeric v).
  Proof.
    induction v as [v Hv|xs IH|xs IH|xs IH] using data_rect'; intros F.
    - destruct v; try contradiction; cbn [jprint fair] in *; try apply above_qstr; try apply above_print; try apply above_real; try (now apply above_plain).
      + now apply above_lit.
      + destruct b; now apply above_lit.
      + unfold int_text. destruct (z <? 0)%Z; [constructor; [lia|]|]; apply above_print.
      + destruct numeric; [apply above_real|now apply above_plain].
    - cbn [jprint fair] in *. unfold array. constructor; [lia|]. apply above_app; [|now apply above_lit]. apply above_join. induction xs as [|x xs IH2]; [constructor|]. cbn [map]. destruct F as [F1 F2]. constructor; [exact (Forall_inv IH F1)|exact (IH2 (Forall_inv_tail IH) F2)].
    - cbn [jprint fair] in *. apply above_braces. induction xs as [|[k x] xs IH2]; [constructor|]. cbn [map fst snd]. destruct F as [ (F0 & F1 & F2) F3]. pose proof (Forall_inv IH) as [I1 I2]. constructor; [|exact (IH2 (Forall_inv_tail IH) F3)].
      apply above_app; [exact (I1 F1)|]. apply above_app; [now apply above_lit|exact (I2 F2)].
    - cbn [jprint fair] in *. apply above_braces. induction xs as [|[k x] xs IH2]; [constructor|]. cbn [map fst snd]. destruct F as [F2 F3]. pose proof (Forall_inv IH F2) as I2. constructor; [|exact (IH2 (Forall_inv_tail IH) F3)].
      apply above_app; [apply above_qstr|]. apply above_app; [now apply above_lit|exact I2].
  Qed.
  Lemma above_each : forall fs, Forall (fun f => forall row t r, Forall fair row -> field_text A numeric f row = Some (t, r) -> above t /\ Forall fair r) fs ->
    forall row ts r, Forall fair row -> each (field_text A numeric) fs row = Some (ts, r) -> Forall above ts /\ Forall fair r.
  Proof.
    intros fs H. induction H as [|f fs H1 H IH]; intros row ts r F E; cbn [each] in E; [injection E as <- <-; now split|].
    destruct (field_text A numeric f row) as [ [t row']|] eqn:X; [|discriminate]. destruct (H1 row t row' F X) as [A1 A2]. fold (each (field_text A numeric)) in E. destruct (each (field_text A numeric) fs row') as [ [us q]|] eqn:Y; [|discriminate]. injection E as <- <-.
    destruct (IH row' us q A2 Y) as [B1 B2]. split; [now constructor|exact B2].
  Qed.
  Lemma above_field : forall f row t r, Forall fair row -> field_text A numeric f row = Some (t, r) -> above t /\ Forall fair r.
  Proof.
    induction f as [n t|n fs IH] using lfield_ind'; intros row u r F E; cbn [field_text] in E.
    - destruct row as [|v row]; [discriminate|]. injection E as <- <-. split; [|exact (Forall_inv_tail F)]. change (above (qstr n ++ chars ": " ++ jprint A numeric (canonical t v))). apply above_app; [apply above_qstr|]. apply above_app; [now apply above_lit|]. apply above_value. apply canonical_fair. exact (Forall_inv F).
    - destruct (each (field_text A numeric) fs row) as [ [ts q]|] eqn:X; [|discriminate]. injection E as <- <-. destruct (above_each fs IH row ts q F X) as [B1 B2]. split; [|exact B2]. change (above (qstr n ++ chars ": " ++ braces ts)). apply above_app; [apply above_qstr|]. apply above_app; [now apply above_lit|]. now apply above_braces.
  Qed.
  Lemma above_line : forall flat fs row t, Forall fair row -> line A numeric flat fs row = Some t -> above t.
  Proof.
    intros flat fs row t F E. unfold line in E. match type of E with match each _ ?fs' _ with _ => _ end = _ => set (l := fs') in E end. destruct (each (field_text A numeric) l row) as [ [ts q]|] eqn:X; [|discriminate]. injection E as <-.
    apply above_braces. eapply above_each; [|exact F|exact X]. apply Forall_forall. intros f _ row' t' r' F' X'. eapply above_field; eassumption.
  Qed.
End Says.

(** * Looking fields up *)

Definition no_dot (n : text) : Prop := ~ In 46 n.
(** Names are without dots, and those of the fields of a record are distinct. *)
Fixpoint orderly (f : lfield) : Prop :=
  match f with
  | Leaf n _ => n <> [] /\ no_dot n
  | Node n fs => n <> [] /\ no_dot n /\ NoDup (map lname fs) /\ (fix all l := match l with [] => True | x :: r => orderly x /\ all r end) fs
  end.
Definition orderly_layout (fs : list lfield) : Prop := NoDup (map lname fs) /\ Forall orderly fs.
Lemma orderly_node : forall n fs, orderly (Node n fs) -> n <> [] /\ no_dot n /\ orderly_layout fs.
Proof. intros n fs (H1 & H2 & H3 & H4). split; [exact H1|]. split; [exact H2|]. split; [exact H3|]. induction fs as [|f fs IH]; [constructor|]. destruct H4 as [H4 H5]. constructor; [exact H4|]. apply IH; [now inversion H3|exact H5]. Qed.
Lemma orderly_name : forall f, orderly f -> lname f <> [] /\ no_dot (lname f).
Proof. intros [n t|n fs] H; [exact H|]. destruct H as (H1 & H2 & _). now split. Qed.

Lemma at_dot_app : forall n r, no_dot n -> at_dot (n ++ 46 :: r) = Some (n, r).
Proof.
  induction n as [|c n IH]; intros r H; [reflexivity|]. cbn [app at_dot]. destruct (N.eqb_spec c 46) as [->|_]; [exfalso; apply H; now left|]. rewrite IH; [reflexivity|]. intros I. apply H. now right.
Qed.
Lemma at_dot_none : forall n, no_dot n -> at_dot n = None.
Proof. induction n as [|c n IH]; intros H; [reflexivity|]. cbn [at_dot]. destruct (N.eqb_spec c 46) as [->|_]; [exfalso; apply H; now left|]. rewrite IH; [reflexivity|]. intros I. apply H. now right. Qed.

Section Lookup.
  Variable A : arith.
  Variable numeric : bool.
  Definition found (o : list (text * json)) (c : list text * column) (v : data) : Prop :=
    exists j, (forall n, (length (fst c) <= n)%nat -> lookup n (dotted (fst c)) o = Some j) /\ cell_says A numeric (snd c) v j.
  Lemma said_name : forall f row m, field_says A numeric f row m -> fst m = lname f.
  Proof. intros f row m []; reflexivity. Qed.
  Lemma said_names : forall fs row ms, fields_say A numeric fs row ms -> map fst ms = map lname fs.
  Proof. intros fs row ms H. induction H as [|f fs r1 r2 m ms H1 H IH]; [reflexivity|]. cbn [map]. now rewrite IH, (said_name _ _ _ H1). Qed.
  Lemma at_key_unique : forall o m, NoDup (map fst o) -> In m o -> at_key (fst m) o = Some (snd m).
  Proof.
    intros o m D I. unfold at_key. induction o as [|x o IH]; [contradiction|]. cbn [find]. cbn [map] in D. inversion D as [|? ? D1 D2]; subst. destruct (bytes_eqb (fst x) (fst m)) eqn:E.
    - apply AddressProofs.bytes_eqb_spec in E. destruct I as [->|I]; [reflexivity|]. exfalso. apply D1. rewrite E. now apply in_map.
    - destruct I as [->|I]; [rewrite (proj2 (AddressProofs.bytes_eqb_spec _ _) eq_refl) in E; discriminate|]. now apply IH.
  Qed.
  Lemma field_found : forall f, orderly f -> forall row m, field_says A numeric f row m -> forall o, at_key (lname f) o = Some (snd m) -> Forall2 (found o) (cols f) row.
  Proof.
    induction f as [n t|n fs IH] using lfield_ind'; intros W row m H o K.
    - inversion H; subst. cbn [cols lname snd] in *. constructor; [|constructor]. exists j. split; [|assumption]. cbn [fst]. intros [|k] L; [cbn in L; lia|]. cbn [lookup dotted join_text flat_map]. rewrite app_nil_r. destruct W as [_ W]. now rewrite at_dot_none.
    - apply orderly_node in W. destruct W as (W1 & W2 & W3 & W4). inversion H as [|n' fs' row' ms S]; subst. cbn [lname snd cols] in *. fold (columns fs).
      assert (G : Forall2 (found ms) (columns fs) row).
      { assert (U : forall x, In x ms -> at_key (fst x) ms = Some (snd x)). { intros x I. apply at_key_unique; [|exact I]. rewrite (said_names _ _ _ S). exact W3. }
        clear W3 H K W1 W2. unfold columns. revert U. generalize ms at 2 3. intros M U. induction S as [|f fs r1 r2 x ms S1 S2 IHS]; [constructor|]. cbn [flat_map]. apply Forall2_app.
        - apply (Forall_inv IH (Forall_inv W4) r1 x S1). rewrite <- (said_name _ _ _ S1). apply U. now left.
        - apply IHS; [exact (Forall_inv_tail IH)|exact (Forall_inv_tail W4)|]. intros y I. apply U. now right. }
      assert (P := columns_paths fs). clear - G K W2 P. induction G as [|c v cs vs (j & J1 & J2) G IHG]; [constructor|]. cbn [map]. constructor; [|apply IHG; exact (Forall_inv_tail P)].
      exists j. cbn [fst snd]. split; [|exact J2]. intros [|k] L; [cbn in L; lia|]. rewrite dotted_cons by exact (Forall_inv P). cbn [lookup]. rewrite at_dot_app by exact W2. rewrite K. apply J1. cbn in L. lia.
  Qed.
  Lemma nested_found : forall fs row o, orderly_layout fs -> fields_say A numeric fs row o -> Forall2 (found o) (columns fs) row.
  Proof.
    intros fs row o [W3 W4] S.
    assert (U : forall x, In x o -> at_key (fst x) o = Some (snd x)). { intros x I. apply at_key_unique; [|exact I]. rewrite (said_names _ _ _ S). exact W3. }
    clear W3. unfold columns. revert U. generalize o at 2 3. intros M U. induction S as [|f fs r1 r2 x ms S1 S2 IHS]; [constructor|]. cbn [flat_map]. apply Forall2_app.
    - apply (field_found f (Forall_inv W4) r1 x S1). rewrite <- (said_name _ _ _ S1). apply U. now left.
    - apply IHS; [exact (Forall_inv_tail W4)|]. intros y I. apply U. now right.
  Qed.

  (** The flattened form. *)
  Lemma cols_head : forall f c, In c (cols f) -> exists p, fst c = lname f :: p /\ (p = [] <-> exists n t, f = Leaf n t).
  Proof.
    intros [n t|n fs] c I; cbn [cols lname] in *.
    - destruct I as [<-|[] ]. exists []. split; [reflexivity|]. split; [eauto|reflexivity].
    - apply in_map_iff in I. destruct I as (x & <- & I). exists (fst x). split; [reflexivity|]. pose proof (columns_paths fs) as P. rewrite Forall_forall in P. specialize (P x I). split; [contradiction|]. intros (n' & t & E). discriminate.
  Qed.
  Lemma orderly_paths : forall f, orderly f -> forall c, In c (cols f) -> Forall no_dot (fst c).
  Proof.
    induction f as [n t|n fs IH] using lfield_ind'; intros W c I.
    - destruct I as [<-|[] ]. constructor; [apply W|constructor].
    - apply orderly_node in W. destruct W as (W1 & W2 & W3 & W4). cbn [cols] in I. apply in_map_iff in I. destruct I as (x & <- & I). cbn [fst]. constructor; [exact W2|]. apply in_flat_map in I. destruct I as (f & I1 & I2). rewrite Forall_forall in IH, W4. exact (IH f I1 (W4 f I1) x I2).
  Qed.
  Lemma dot_split : forall a b r s, no_dot a -> no_dot b -> a ++ 46 :: r = b ++ 46 :: s -> a = b /\ r = s.
  Proof. intros a b r s Ha Hb E. pose proof (at_dot_app a r Ha) as X. rewrite E, at_dot_app in X by exact Hb. now injection X as -> ->. Qed.
  Lemma dot_in : forall a r, In 46 (a ++ 46 :: r).
  Proof. intros. apply in_or_app. right. now left. Qed.
  Lemma dotted_inj : forall p q, Forall no_dot p -> Forall no_dot q -> p <> [] -> q <> [] -> dotted p = dotted q -> p = q.
  Proof.
    induction p as [|a p IH]; intros q P Q NP NQ E; [contradiction|]. destruct q as [|b q]; [contradiction|]. pose proof (Forall_inv P) as Pa. pose proof (Forall_inv Q) as Qb.
    destruct p as [|a2 p]; destruct q as [|b2 q].
    - unfold dotted in E. cbn in E. rewrite !app_nil_r in E. now subst.
    - rewrite (dotted_cons b) in E by discriminate. unfold dotted at 1 in E. cbn [join_text flat_map] in E. rewrite app_nil_r in E. subst a. exfalso. apply Pa. apply dot_in.
    - rewrite (dotted_cons a) in E by discriminate. unfold dotted at 2 in E. cbn [join_text flat_map] in E. rewrite app_nil_r in E. subst b. exfalso. apply Qb. apply dot_in.
    - rewrite (dotted_cons a), (dotted_cons b) in E by discriminate. apply dot_split in E; [|assumption|assumption]. destruct E as [-> E]. f_equal. apply IH; [exact (Forall_inv_tail P)|exact (Forall_inv_tail Q)|discriminate|discriminate|exact E].
  Qed.
  Lemma NoDup_app_disjoint : forall {B} (l m : list B), NoDup l -> NoDup m -> (forall x, In x l -> ~ In x m) -> NoDup (l ++ m).
  Proof. intros B l m D1 D2 H. induction D1 as [|x l X D1 IH]; [exact D2|]. cbn [app]. constructor; [intros I; apply in_app_or in I; destruct I as [I|I]; [contradiction|]; apply (H x); [now left|exact I]|apply IH; intros y I; apply H; now right]. Qed.
  Lemma NoDup_map_inj : forall {B C} (f : B -> C) l, (forall x y, In x l -> In y l -> f x = f y -> x = y) -> NoDup l -> NoDup (map f l).
  Proof.
    intros B C f l H D. induction D as [|x l X D IH]; [constructor|]. cbn [map]. constructor; [|apply IH; intros; apply H; try (now right); assumption].
    intros I. apply in_map_iff in I. destruct I as (y & E & I). apply X. rewrite <- (H y x); [exact I|now right|now left|exact E].
  Qed.
  Lemma columns_nodup : forall fs, Forall (fun f => orderly f -> NoDup (map fst (cols f))) fs -> orderly_layout fs -> NoDup (map fst (columns fs)).
  Proof.
    intros fs H [W1 W2]. induction H as [|f fs H1 H IH]; [constructor|]. unfold columns. cbn [flat_map]. rewrite map_app. cbn [map] in W1. inversion W1 as [|? ? D1 D2]; subst. apply NoDup_app_disjoint; [exact (H1 (Forall_inv W2))|exact (IH D2 (Forall_inv_tail W2))|].
    intros p I J. apply in_map_iff in I. destruct I as (c & <- & I). apply in_map_iff in J. destruct J as (d & E & J). apply in_flat_map in J. destruct J as (g & G & J). destruct (cols_head f c I) as (p & P & _). destruct (cols_head g d J) as (q & Q & _). apply D1. rewrite E, P in Q. injection Q as -> _. now apply in_map.
  Qed.
  Lemma cols_nodup : forall f, orderly f -> NoDup (map fst (cols f)).
  Proof.
    induction f as [n t|n fs IH] using lfield_ind'; intros W; [repeat constructor; intros []|]. apply orderly_node in W. destruct W as (W1 & W2 & W3). cbn [cols]. fold (columns fs). rewrite map_map. cbn [fst].
    rewrite <- (map_map fst (cons n)). apply NoDup_map_inj; [intros x y _ _ E; now injection E|]. now apply columns_nodup.
  Qed.
  Lemma paths_nodup : forall fs, orderly_layout fs -> NoDup (map fst (columns fs)).
  Proof. intros fs W. apply columns_nodup; [|exact W]. apply Forall_forall. intros f _. apply cols_nodup. Qed.
  Lemma columns_clean : forall fs c, orderly_layout fs -> In c (columns fs) -> Forall no_dot (fst c) /\ fst c <> [].
  Proof. intros fs c [_ W] I. split; [|pose proof (columns_paths fs) as P; rewrite Forall_forall in P; now apply P]. apply in_flat_map in I. destruct I as (f & F & I). rewrite Forall_forall in W. exact (orderly_paths f (W f F) c I). Qed.
  (** No column is named like the beginning of another. *)
  Lemma no_prefix : forall fs c d a p, orderly_layout fs -> In c (columns fs) -> In d (columns fs) -> fst c = a :: p -> p <> [] -> fst d <> [a].
  Proof.
    intros fs c d a p [W1 W2] I J P NP Q. apply in_flat_map in I. destruct I as (f & F & I). apply in_flat_map in J. destruct J as (g & G & J).
    destruct (cols_head f c I) as (p' & P' & L). destruct (cols_head g d J) as (q' & Q' & M). rewrite P in P'. rewrite Q in Q'. injection P' as E1 <-. injection Q' as E2 <-.
    destruct (proj1 M eq_refl) as (n & t & ->). cbn [lname] in *. subst n.
    assert (X : f = Leaf a t).
    { clear - W1 F G E1. induction fs as [|x fs IH]; [contradiction|]. cbn [map] in W1. inversion W1 as [|? ? D1 D2]; subst. destruct F as [->|F]; destruct G as [G|G].
      - exact G.
      - exfalso. apply D1. change (lname f) with (lname (Leaf (lname f) t)). now apply in_map.
      - subst x. exfalso. apply D1. cbn [lname]. now apply in_map.
      - now apply IH. }
    apply NP. apply L. eauto.
  Qed.
  Lemma flat_found : forall fs row o, orderly_layout fs -> fields_say A numeric (flat_layout fs) row o -> Forall2 (found o) (columns fs) row.
  Proof.
    intros fs row o W S. pose proof (said_names _ _ _ S) as K. unfold flat_layout in K. rewrite map_map in K. cbn [lname] in K.
    assert (D : NoDup (map fst o)).
    { rewrite K. rewrite <- (map_map fst dotted). apply NoDup_map_inj; [|now apply paths_nodup]. intros p q I J E. apply in_map_iff in I, J. destruct I as (c & <- & I). destruct J as (d & <- & J). apply dotted_inj; [now apply (columns_clean fs c W I)|now apply (columns_clean fs d W J)|now apply (columns_clean fs c W I)|now apply (columns_clean fs d W J)|exact E]. }
    assert (U : forall x, In x o -> at_key (fst x) o = Some (snd x)) by (intros x I; now apply at_key_unique).
    assert (N : forall c a p, In c (columns fs) -> fst c = a :: p -> p <> [] -> at_key a o = None).
    { intros c a p I P NP. unfold at_key. destruct (find _ o) as [m|] eqn:E; [|reflexivity]. exfalso. apply find_some in E. destruct E as [M E]. apply AddressProofs.bytes_eqb_spec in E.
      assert (X : In (fst m) (map fst o)) by now apply in_map. rewrite K in X. apply in_map_iff in X. destruct X as (d & X & J). rewrite E in X.
      apply (no_prefix fs c d a p W I J P NP). destruct (columns_clean fs d W J) as [Q1 Q2]. destruct (columns_clean fs c W I) as [P1 _]. rewrite P in P1. apply dotted_inj; [exact Q1|constructor; [exact (Forall_inv P1)|constructor]|exact Q2|discriminate|]. rewrite X. unfold dotted. cbn. now rewrite app_nil_r. }
    assert (C : forall c, In c (columns fs) -> Forall no_dot (fst c) /\ fst c <> []) by (intros c I; now apply (columns_clean fs c W I)).
    clear W K D. revert U N C. unfold flat_layout in S. generalize o at 2 3 4. intros M U N C. remember (map (fun c => Leaf (dotted (fst c)) (snd c)) (columns fs)) as ls eqn:E. revert E U N C. generalize (columns fs). clear fs.
    intros cs E. revert cs E. induction S as [|f fs r1 r2 x ms S1 S2 IHS]; intros cs E U N C; (destruct cs as [|c cs]; try discriminate); [constructor|].
    cbn [map] in E. injection E as -> E. inversion S1; subst. cbn [app]. constructor.
    - exists j. split; [|assumption]. intros [|n] L; [destruct (C c (or_introl eq_refl)) as [_ C2]; destruct (fst c); [contradiction|cbn in L; lia]|]. cbn [lookup].
      specialize (U (dotted (fst c), j) (or_introl eq_refl)). cbn [fst snd] in U. destruct (C c (or_introl eq_refl)) as [C1 C2]. destruct (fst c) as [|a p] eqn:P; [contradiction|]. destruct p as [|b p].
      + unfold dotted in *. cbn [join_text flat_map] in *. rewrite app_nil_r in *. rewrite at_dot_none by exact (Forall_inv C1). exact U.
      + rewrite dotted_cons in * by discriminate. rewrite at_dot_app by exact (Forall_inv C1). rewrite (N c a (b :: p) (or_introl eq_refl) P) by discriminate. exact U.
    - apply (IHS cs eq_refl); [intros y I; apply U; now right|intros d a p I; apply N; now right|intros d I; apply C; now right].
  Qed.
End Lookup.
