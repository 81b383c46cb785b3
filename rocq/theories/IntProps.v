(** Property theorems C04-C07: integer operations. *)
From Coq Require Import List ZArith Bool.
From Verif Require Import IntModel IntSpec IntProofs.
Import ListNotations.
Open Scope Z_scope.

(** * C04: floor division and remainder *)

(** False as stated: 7 // -2 is -4 and 7 % -2 is -1 in Python. *)
Theorem C04_floordiv_refuted :
  exists a b, int_floordiv_pre a b = true /\ forall r, ~ py_divmod a b (int_floordiv a b) r.
Proof.
  exists 7, (-2). split; [reflexivity|]. intros r (E & _ & N).
  specialize (N eq_refl). cbn in E. destruct N as [N1 N2].
  assert (r = 1) by (rewrite <- (Z.add_cancel_l _ _ 6); exact (eq_sym E)). subst r.
  apply N2. reflexivity.
Qed.
Print Assumptions C04_floordiv_refuted.

Theorem C04_mod_refuted :
  exists a b, int_mod_pre a b = true /\ forall q, ~ py_divmod a b q (int_mod a b).
Proof.
  exists 7, (-2). split; [reflexivity|]. intros q (_ & _ & N).
  specialize (N eq_refl). destruct N as [_ N]. apply N. reflexivity.
Qed.
Print Assumptions C04_mod_refuted.

(** Exactly when they are right: positive divisor, or exact division. *)
Theorem C04_floordiv_right_iff : forall a b, b <> 0 ->
  (exists r, py_divmod a b (int_floordiv a b) r) <-> (0 < b \/ (b | a)).
Proof. exact floordiv_value. Qed.
Print Assumptions C04_floordiv_right_iff.

Theorem C04_mod_right_iff : forall a b, b <> 0 ->
  (exists q, py_divmod a b q (int_mod a b)) <-> (0 < b \/ (b | a)).
Proof. exact mod_value. Qed.
Print Assumptions C04_mod_right_iff.

Theorem C04_positive_divisor_partial : forall a b, 0 < b ->
  py_divmod a b (int_floordiv a b) (int_mod a b).
Proof. exact divmod_positive. Qed.
Print Assumptions C04_positive_divisor_partial.

(** The preconditions exclude exactly the divisions on which Python raises
    ZeroDivisionError. *)
Theorem C04_zero_division : forall a b,
  ((int_floordiv_pre a b = false <-> py_zero_division b) /\
   (int_mod_pre a b = false <-> py_zero_division b))%type.
Proof. exact zero_division_pre. Qed.
Print Assumptions C04_zero_division.

(** The specification determines quotient and remainder. *)
Theorem C04_spec_functional : forall a b q r q' r', b <> 0 ->
  py_divmod a b q r -> py_divmod a b q' r' -> q = q' /\ r = r'.
Proof. exact py_divmod_unique. Qed.
Print Assumptions C04_spec_functional.

Example C04_ex : int_floordiv (-7) 2 = -4 /\ int_mod (-7) 2 = 1.
Proof. split; reflexivity. Qed.

(** * C05: shifts *)

(** False as stated: with the default width 8, 1 << 65 becomes 0 and
    -1 >> 65 becomes 0. *)
Theorem C05_lshift_refuted :
  exists w a b z, 1 <= w /\ shift_pre w a b = true /\ int_lshift w a b = PyInt z /\
    ~ py_lshift (unbox a) (unbox b) z.
Proof.
  exists 8, (PyInt 1), (PyInt 65), 0. split; [discriminate|]. split; [reflexivity|].
  split; [reflexivity|]. intros H. discriminate H.
Qed.
Print Assumptions C05_lshift_refuted.

Theorem C05_rshift_refuted :
  exists w a b z, 1 <= w /\ shift_pre w a b = true /\ int_rshift w a b = PyInt z /\
    ~ py_rshift (unbox a) (unbox b) z.
Proof.
  exists 8, (PyInt (-1)), (PyInt 65), 0. split; [discriminate|]. split; [reflexivity|].
  split; [reflexivity|]. intros [H _]. apply H. reflexivity.
Qed.
Print Assumptions C05_rshift_refuted.

(** Right for every operand when the amount is at most 64, ... *)
Theorem C05_lshift_partial : forall w a b, 0 <= w -> shift_pre w a b = true -> unbox b <= 64 ->
  exists z, int_lshift w a b = PyInt z /\ py_lshift (unbox a) (unbox b) z.
Proof. exact lshift_boxed. Qed.
Print Assumptions C05_lshift_partial.

(** ... and for right shifts also for every amount if the operand is not negative. *)
Theorem C05_rshift_partial : forall w a b, 0 <= w -> shift_pre w a b = true ->
  unbox b <= 64 \/ 0 <= unbox a ->
  exists z, int_rshift w a b = PyInt z /\ py_rshift (unbox a) (unbox b) z.
Proof. exact rshift_boxed. Qed.
Print Assumptions C05_rshift_partial.

(** Larger amounts: right if no bit is shifted out of the bit vector. *)
Theorem C05_lshift_wide_partial : forall w a b, 0 <= w -> shift_pre w a b = true ->
  Z.abs (unbox a) * 2 ^ unbox b < 2 ^ w ->
  exists z, int_lshift w a b = PyInt z /\ py_lshift (unbox a) (unbox b) z.
Proof. exact lshift_wide. Qed.
Print Assumptions C05_lshift_wide_partial.

Theorem C05_rshift_wide_partial : forall w a b, 0 <= w -> shift_pre w a b = true ->
  0 <= unbox a \/ (Z.abs (unbox a) < 2 ^ w /\ (2 ^ unbox b | unbox a)) ->
  exists z, int_rshift w a b = PyInt z /\ py_rshift (unbox a) (unbox b) z.
Proof. exact rshift_wide. Qed.
Print Assumptions C05_rshift_wide_partial.

Example C05_wide_ex :
  shift_pre 100 (PyInt (-3)) (PyInt 70) = true /\
  Z.abs (unbox (PyInt (-3))) * 2 ^ unbox (PyInt 70) < 2 ^ 100 /\
  int_lshift 100 (PyInt (-3)) (PyInt 70) = PyInt (-3 * 2 ^ 70) /\
  int_rshift 100 (PyInt (-3 * 2 ^ 70)) (PyInt 70) = PyInt (-3).
Proof. repeat split; vm_compute; reflexivity. Qed.

(** For widths up to 6 the precondition itself excludes larger amounts. *)
Theorem C05_small_widths : forall w a b, 0 <= w <= 6 -> shift_pre w a b = true -> unbox b <= 64.
Proof. exact small_width_amount. Qed.
Print Assumptions C05_small_widths.

Example C05_ex : shift_pre 8 (PyInt (-5)) (PyInt 33) = true /\
  int_lshift 8 (PyInt (-5)) (PyInt 33) = PyInt (-42949672960) /\
  int_rshift 8 (PyInt (-5)) (PyInt 1) = PyInt (-3).
Proof. repeat split; reflexivity. Qed.

(** * C06: bitwise operators *)

(** False as stated: operands down to -2^w are admitted but the result is read as
    an unsigned number. With the default width, -1 & -1 becomes 255. *)
Theorem C06_bitops_refuted :
  exists w a b, 1 <= w /\ bitop_pre w a b = true /\
    ~ py_bitop_val andb a b (int_and w a b) /\
    ~ py_bitop_val orb a b (int_or w a b) /\
    ~ py_bitop_val xorb (PyInt 0) b (int_xor w (PyInt 0) b).
Proof.
  exists 8, (PyInt (-1)), (PyInt (-1)). split; [discriminate|]. split; [reflexivity|].
  repeat split; intros (z & E & H); cbn in E; inversion E; subst z; clear E;
    specialize (H 8); cbn in H; discriminate (H ltac:(discriminate)).
Qed.
Print Assumptions C06_bitops_refuted.

(** For every width and all admitted operands, the value is Python's exactly when
    Python's value is not negative. *)
Theorem C06_and_right_iff : forall w a b, 1 <= w -> bitop_pre w a b = true ->
  (py_bitop_val andb a b (int_and w a b) <-> 0 <= Z.land (unbox a) (unbox b)).
Proof. exact int_and_value. Qed.
Print Assumptions C06_and_right_iff.

Theorem C06_or_right_iff : forall w a b, 1 <= w -> bitop_pre w a b = true ->
  (py_bitop_val orb a b (int_or w a b) <-> 0 <= Z.lor (unbox a) (unbox b)).
Proof. exact int_or_value. Qed.
Print Assumptions C06_or_right_iff.

Theorem C06_xor_right_iff : forall w a b, 1 <= w -> bitop_pre w a b = true ->
  (py_bitop_val xorb a b (int_xor w a b) <-> 0 <= Z.lxor (unbox a) (unbox b)).
Proof. exact int_xor_value. Qed.
Print Assumptions C06_xor_right_iff.

Theorem C06_nonnegative_partial : forall w a b, 1 <= w -> bitop_pre w a b = true ->
  0 <= unbox a -> 0 <= unbox b ->
  py_bitop_val andb a b (int_and w a b) /\ py_bitop_val orb a b (int_or w a b) /\
  py_bitop_val xorb a b (int_xor w a b).
Proof. exact bitops_nonneg. Qed.
Print Assumptions C06_nonnegative_partial.

Example C06_ex : bitop_pre 8 (PyInt 200) (PyInt (-5)) = true /\
  int_and 8 (PyInt 200) (PyInt (-5)) = PyInt 200.
Proof. split; reflexivity. Qed.

(** * C07: other integer builtins *)

Theorem C07_pow : forall x n, int_pow_pre x n = true -> int_pow x n = py_pow x n.
Proof. exact int_pow_ok. Qed.
Print Assumptions C07_pow.

Theorem C07_pow_literal_exponent : forall pw x n r, pow_axioms pw -> int_pow_pre x n = true ->
  (pow_unrolled_post pw x n r <-> r = py_pow x n).
Proof. exact pow_unrolled_ok. Qed.
Print Assumptions C07_pow_literal_exponent.

Theorem C07_pow_axioms_consistent : exists pw, pow_axioms pw.
Proof. exact (ex_intro _ py_pow pow_axioms_sat). Qed.
Print Assumptions C07_pow_axioms_consistent.

Theorem C07_bit_length : forall v, int_bit_length_pre v = true ->
  py_bit_length (unbox v) (int_bit_length v).
Proof. exact bit_length_ok. Qed.
Print Assumptions C07_bit_length.

Theorem C07_invert : forall v, exists z, int_invert v = PyInt z /\ py_invert (unbox v) z.
Proof. exact invert_ok. Qed.
Print Assumptions C07_invert.

Theorem C07_truth_value : forall v,
  (int_bool v = true <-> unbox v <> 0) /\ (forall x, bool_bool (PyBool x) = x).
Proof. exact int_bool_ok. Qed.
Print Assumptions C07_truth_value.

Theorem C07_abs : forall a, sil_abs a = Z.abs a.
Proof. exact sil_abs_ok. Qed.
Print Assumptions C07_abs.

Theorem C07_comparisons : forall a b,
  (int_eq a b = true <-> unbox a = unbox b) /\ (int_ge a b = true <-> unbox a >= unbox b) /\
  (int_gt a b = true <-> unbox a > unbox b) /\ (int_le a b = true <-> unbox a <= unbox b) /\
  (int_lt a b = true <-> unbox a < unbox b).
Proof. exact comparisons_ok. Qed.
Print Assumptions C07_comparisons.

Theorem C07_bool_equals_int : forall x b,
  bool_eq (PyBool x) b = true <-> unbox (PyBool x) = unbox b.
Proof. exact bool_eq_ok. Qed.
Print Assumptions C07_bool_equals_int.

Theorem C07_max_of_two : forall a b, py_max [unbox a; unbox b] (max2 a b).
Proof. exact max2_ok. Qed.
Print Assumptions C07_max_of_two.

Theorem C07_min_of_two : forall a b, py_min [unbox a; unbox b] (min2 a b).
Proof. exact min2_ok. Qed.
Print Assumptions C07_min_of_two.

(** For lists of exact ints the contract admits Python's value but does not
    determine it: "have the value Python computes" holds only in this direction. *)
Theorem C07_max_min_of_list_partial : forall l m,
  (forall x, In x l -> is_bool x = false) ->
  py_max (map unbox l) m \/ py_min (map unbox l) m -> maxmin_list_post l m.
Proof. exact max_list_sound. Qed.
Print Assumptions C07_max_min_of_list_partial.

Theorem C07_max_of_list_undetermined_refuted :
  exists l m, maxmin_list_pre l = true /\ maxmin_list_post l m /\ ~ py_max (map unbox l) m.
Proof.
  exists [PyInt 1; PyInt 2], 1. split; [reflexivity|]. split.
  - left; reflexivity.
  - intros [_ H]. apply (H 2); [right; left; reflexivity | reflexivity].
Qed.
Print Assumptions C07_max_of_list_undetermined_refuted.

(** max([True]) is True in Python; no result at all satisfies the contract. *)
Theorem C07_max_of_bools_unsatisfiable_refuted :
  exists l, maxmin_list_pre l = true /\ (exists m, py_max (map unbox l) m) /\
    forall m, ~ maxmin_list_post l m.
Proof.
  exists [PyBool true]. split; [reflexivity|]. split.
  - exists 1. split; [left; reflexivity|]. intros x [<-|[]]. discriminate.
  - intros m [H|[]]. discriminate H.
Qed.
Print Assumptions C07_max_of_bools_unsatisfiable_refuted.

(** sorted: the contract holds of a list iff it is an ascending permutation. *)
Theorem C07_sorted : forall r rs, sorted_post r rs <-> py_sorted r rs.
Proof. exact sorted_ok. Qed.
Print Assumptions C07_sorted.

(** 4 / 2 is a float in Python, but the contract makes it an int. *)
Theorem C07_truediv_refuted :
  exists a b r, b <> 0 /\ int_truediv_post a b r /\ ~ py_truediv a b r.
Proof.
  exists 4, 2, (NInt 2). split; [discriminate|]. split.
  - split; [reflexivity|]. intros H. exfalso. apply H. reflexivity.
  - discriminate.
Qed.
Print Assumptions C07_truediv_refuted.

(** When it claims an int, that int is at least the exact quotient. *)
Theorem C07_truediv_partial : forall a b q, b <> 0 -> int_truediv_post a b (NInt q) -> a = q * b.
Proof. exact truediv_value_ok. Qed.
Print Assumptions C07_truediv_partial.

(** sum: the axioms determine the sum, and the conversion is right on ints; but the
    conversion function's contract, which has no precondition, is unsatisfiable. *)
Theorem C07_sum_axioms : forall f, sum_axioms f -> forall l, f l = py_sum l.
Proof. exact sum_axioms_ok. Qed.
Print Assumptions C07_sum_axioms.

Theorem C07_sum_axioms_consistent : exists f, sum_axioms f.
Proof. exact (ex_intro _ py_sum sum_axioms_sat). Qed.
Print Assumptions C07_sum_axioms_consistent.

Theorem C07_sum_conversion_partial : forall f sr, seq_to_ints_post f sr ->
  (forall r, In r sr -> ref_is_int r = true) -> f sr = map ref_unbox sr.
Proof. exact seq_to_ints_value. Qed.
Print Assumptions C07_sum_conversion_partial.

Theorem C07_sum_contract_unsatisfiable_refuted : forall f, ~ (forall sr, seq_to_ints_post f sr).
Proof. exact seq_to_ints_unsat. Qed.
Print Assumptions C07_sum_contract_unsatisfiable_refuted.

Example C07_ex : int_pow (-3) 5 = -243 /\ int_bit_length (PyInt (-1023)) = 10 /\
  py_sorted [PyInt 3; PyBool true; PyInt 2] [PyBool true; PyInt 2; PyInt 3].
Proof.
  repeat split; try reflexivity.
  - apply Sorting.Permutation.Permutation_trans with [PyBool true; PyInt 3; PyInt 2]; repeat constructor.
  - repeat constructor; discriminate.
Qed.
