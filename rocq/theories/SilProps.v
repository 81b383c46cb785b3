(** Property theorems C03: the Viper expressions produced by the builders mean
    what the builders say, in every state and for every operand. *)
From Coq Require Import List ZArith Bool.
From Verif Require Import SilModel SilSpec SilProofs.
Import ListNotations.
Open Scope Z_scope.

Theorem C03_int_builders_preserve_meaning :
  forall s e, vieval s (itrans e) = imean s e.
Proof. exact itrans_ok. Qed.
Print Assumptions C03_int_builders_preserve_meaning.

Theorem C03_bool_builders_preserve_meaning :
  forall s e, vbeval s (btrans e) = bmean s e.
Proof. exact btrans_ok. Qed.
Print Assumptions C03_bool_builders_preserve_meaning.

(** The static verdicts used to drop checks are right in every state. *)
Theorem C03_always_true_sound : forall s e, is_always_true e = true -> bmean s e = true.
Proof. exact always_true_mean. Qed.
Print Assumptions C03_always_true_sound.

Theorem C03_always_false_sound : forall s e, is_always_false e = true -> bmean s e = false.
Proof. exact always_false_mean. Qed.
Print Assumptions C03_always_false_sound.

(** Operators on builder objects and Python ints. *)
Theorem C03_operator_plus : forall s a z,
  vieval s (itrans (py_add a (PInt z))) = imean s a + z.
Proof. exact (fun s a z => py_add_ok s a (PInt z)). Qed.
Print Assumptions C03_operator_plus.

Theorem C03_operator_plus_node : forall s a b,
  vieval s (itrans (py_add a (Node b))) = imean s a + imean s b.
Proof. exact (fun s a b => py_add_ok s a (Node b)). Qed.
Print Assumptions C03_operator_plus_node.

Theorem C03_operator_minus : forall s a z,
  vieval s (itrans (py_sub a (PInt z))) = imean s a - z.
Proof. exact (fun s a z => py_sub_ok s a (PInt z)). Qed.
Print Assumptions C03_operator_minus.

Theorem C03_operator_minus_node : forall s a b,
  vieval s (itrans (py_sub a (Node b))) = imean s a - imean s b.
Proof. exact (fun s a b => py_sub_ok s a (Node b)). Qed.
Print Assumptions C03_operator_minus_node.

Theorem C03_operator_compare : forall s a z,
  vbeval s (btrans (py_gt a (PInt z))) = (imean s a >? z) /\
  vbeval s (btrans (py_ge a (PInt z))) = (imean s a >=? z) /\
  vbeval s (btrans (py_lt a (PInt z))) = (imean s a <? z) /\
  vbeval s (btrans (py_le a (PInt z))) = (imean s a <=? z).
Proof. exact (fun s a z => py_cmp_ok s a (PInt z)). Qed.
Print Assumptions C03_operator_compare.

Theorem C03_conditional_increment : forall s c v,
  vieval s (itrans (CondInc c v)) = imean s v + (if bmean s c then 1 else 0).
Proof. exact cond_inc_ok. Qed.
Print Assumptions C03_conditional_increment.

Example C03_ex :
  btrans (Implies (GtCmp (PyNum 2) (RawInt 1)) (BigAnd [TrueLit; PyBool 0; GeCmp (RawInt 3) (RawInt 3); PyBool 1]))
  = VAnd (VBoolAtom 0) (VBoolAtom 1).
Proof. reflexivity. Qed.
Example C03_ex_sum : forall s, vieval s (itrans (Sum [PyInt 0; RawInt 2; Inc (PyInt 1)]))
  = ints s 0%nat + (2 + ((ints s 1%nat + 1) + 0)).
Proof. intros s. rewrite itrans_ok. reflexivity. Qed.
