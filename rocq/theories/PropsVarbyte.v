(** C34: variable-byte coding round-trips. *)
From Coq Require Import List NArith Lia.
From Verif Require Import VarbyteModel VarbyteProofs.
Import ListNotations.
Open Scope N_scope.

(** Decoding what was encoded returns the value and the number of bytes
    written, whatever bytes follow, with no out-of-bounds read or bad shift. *)
Theorem C34_varbyte_roundtrip : forall w x rest,
  In w [8; 16; 32; 64] -> x < 2 ^ w ->
  decode w (encode x ++ rest) = Some (x, N.of_nat (length (encode x))).
Proof.
  intros. apply decode_encode; auto.
  destruct H as [<-|[<-|[<-|[<-|[]]]]]; lia.
Qed.
Print Assumptions C34_varbyte_roundtrip.

(** The size computed in advance is the number of bytes written, and it fits
    the advertised maximum. *)
Theorem C34_varbyte_size : forall w x,
  In w [8; 16; 32; 64] -> x < 2 ^ w ->
  size w x = N.of_nat (length (encode x)) /\
  N.of_nat (length (encode x)) <= max_size w.
Proof.
  intros w x Hw Hx. rewrite <- (size_encode w x) by auto.
  split; auto using size_max.
Qed.
Print Assumptions C34_varbyte_size.

Example C34_example :
  encode (2 ^ 63 + 300) = [172; 130; 128; 128; 128; 128; 128; 128; 128; 1] /\
  decode 64 (encode (2 ^ 63 + 300) ++ [255; 255]) = Some (2 ^ 63 + 300, 10).
Proof. vm_compute. auto. Qed.
