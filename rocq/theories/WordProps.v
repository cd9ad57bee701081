(** Theorems about the representation of the integers programs compute: the hypothesis [valid] of the
    theorems about numbers is kept by every message. *)
From Coq Require Import ZArith Bool String List Lia Floats.SpecFloat.
From Verif Require Import Base NumModel NumSpec NumProofs WfSpec WfProofs WordProofs.
Import ListNotations.
Open Scope Z_scope.

(** * C01 *)
(** In the translated VM, whatever is sent to an integer or a double with whatever argument, a
    machine-word integer that is answered fits into 64 bits.  (Under plain Python integers are unbounded and there
    is nothing to fit.) *)
Theorem C01_translated_words : forall a sel b v, valid Translated a -> valid Translated b ->
  send1 Translated a sel b = Ok v -> valid Translated v.
Proof. exact v_send1. Qed.
Print Assumptions C01_translated_words.
Theorem C01_translated_words_unary : forall a sel v, valid Translated a -> send0 Translated a sel = Ok v -> valid Translated v.
Proof. exact v_send0. Qed.
Print Assumptions C01_translated_words_unary.
(** The same of the increment and the decrement the compiler puts in the place of + 1 and - 1. *)
Theorem C02_translated_words : forall a v, bc_inc Translated a = Ok v \/ bc_dec Translated a = Ok v -> valid Translated v.
Proof. exact v_incs. Qed.
Print Assumptions C02_translated_words.
Example C01_nonvacuous_words :
  valid Translated (VInt (- 2 ^ 63)) /\ send0 Translated (VInt (- 2 ^ 63)) "abs" = Ok (VInt (- 2 ^ 63)) /\
  send1 Translated (VInt (- 2 ^ 63)) "bitXor:" (VInt (2 ^ 63 - 1)) = Ok (VInt (-1)) /\
  bc_inc Translated (VInt (2 ^ 63 - 1)) = Ok (VBig (2 ^ 63)).
Proof. split; [cbn [valid]; lia|]. repeat split; vm_compute; reflexivity. Qed.
