(* Property C35: facts about floats. *)

From Coq Require Import ZArith Bool QArith Qround Qcanon Floats.SpecFloat Lia.
From Verif Require Import FloatModel FloatSpec FloatProofs.
Open Scope Z_scope.

(* ------------------------------------------------------------------------------------ *)
(* Real encoding. *)

(* The contracts of + - * / and unary minus (also in their reflected form) have exactly one
   result for all arguments, infinities and nan included: the one of the number rules. *)
Theorem C35_real_arithmetic : forall self other r,
  (add_post self other r <-> r = VFloat (x_add (num_of self) (num_of other))) /\
  (radd_post self other r <-> r = VFloat (x_add (num_of other) (num_of self))) /\
  (sub_post self other r <-> r = VFloat (x_sub (num_of self) (num_of other))) /\
  (rsub_post self other r <-> r = VFloat (x_sub (num_of other) (num_of self))) /\
  (mul_post self other r <-> r = VFloat (x_mul (num_of self) (num_of other))) /\
  (rmul_post self other r <-> r = VFloat (x_mul (num_of other) (num_of self))) /\
  (neg_post self r <-> r = VFloat (x_neg (num_of self))).
Proof.
  intros self other r.
  exact (conj (add_right self other r) (conj (radd_right self other r) (conj (sub_right self other r)
        (conj (rsub_right self other r) (conj (mul_right self other r)
        (conj (rmul_right self other r) (neg_right self r))))))).
Qed.
Print Assumptions C35_real_arithmetic.
Example C35_real_arithmetic_ex :
  x_add (XInf false) (XInf true) = XNan /\ x_mul (XInf true) (XFin (Q2Qc (-2 # 1))) = XInf false /\
  x_sub (XFin (Q2Qc (1 # 2))) (XFin (Q2Qc (1 # 4))) = XFin (Q2Qc (1 # 4)).
Proof. split; [reflexivity|]; split; [reflexivity|]; cbn; f_equal; apply Qc_is_canon; reflexivity. Qed.

Theorem C35_real_division : forall self other r,
  (truediv_pre self other <-> num_of other <> XFin (Q2Qc 0)) /\
  (truediv_pre self other ->
   (truediv_post self other r <-> r = VFloat (x_div (num_of self) (num_of other)))) /\
  (rtruediv_pre self other ->
   (rtruediv_post self other r <-> r = VFloat (x_div (num_of other) (num_of self)))).
Proof.
  intros self other r.
  exact (conj (div_pre_iff self other) (conj (div_right self other r) (rdiv_right self other r))).
Qed.
Print Assumptions C35_real_division.
Example C35_real_division_ex : truediv_pre (VInt 1) (VFloat (XFin (Q2Qc (3 # 1)))).
Proof. apply div_pre_iff; discriminate. Qed.

(* Equality and truth value are right for all arguments. *)
Theorem C35_real_equality : forall self other r,
  (eq_post self other r <-> (r = true <-> x_eq (num_of self) (num_of other))) /\
  (bool_post self r <-> (r = true <-> x_true (num_of self))).
Proof. intros self other r; exact (conj (eq_right self other r) (bool_right self r)). Qed.
Print Assumptions C35_real_equality.
Example C35_real_equality_ex : eq_post box_nan box_nan false /\ ~ eq_post box_nan box_nan true.
Proof. split; [|rewrite eq_right]; [apply eq_right|]; unfold x_eq; cbn; intuition congruence. Qed.

(* The order is right except for a nan and an infinity ... *)
Theorem C35_real_order_partial : forall self other r,
  (~ clash (num_of self) (num_of other) ->
   (ge_post self other r <-> (r = true <-> x_le (num_of other) (num_of self))) /\
   (gt_post self other r <-> (r = true <-> x_lt (num_of other) (num_of self)))) /\
  (~ clash (num_of other) (num_of self) ->
   (le_post self other r <-> (r = true <-> x_le (num_of self) (num_of other))) /\
   (lt_post self other r <-> (r = true <-> x_lt (num_of self) (num_of other)))).
Proof.
  intros self other r.
  exact (conj (fun K => conj (ge_right self other r K) (gt_right self other r K))
              (fun K => conj (le_right self other r K) (lt_right self other r K))).
Qed.
Print Assumptions C35_real_order_partial.
Example C35_real_order_ex :
  ~ clash (num_of (VInt 3)) (num_of (box_inf false)) /\ ~ clash (num_of box_nan) (num_of box_nan) /\
  ~ clash (num_of (box_inf true)) (num_of box_nan).
Proof. unfold clash; cbn; intuition discriminate. Qed.

(* ... where the clauses contradict each other: whoever compares these two values has proved
   everything. *)
Theorem C35_real_order_refuted : forall self other,
  clash (num_of self) (num_of other) ->
  (~ exists r, ge_post self other r) /\ (~ exists r, gt_post self other r) /\
  (~ exists r, le_post other self r) /\ (~ exists r, lt_post other self r).
Proof.
  intros self other K.
  exact (conj (fun '(ex_intro _ r H) => ge_clash self other r K H)
        (conj (fun '(ex_intro _ r H) => gt_clash self other r K H)
        (conj (fun '(ex_intro _ r H) => le_clash other self r K H)
              (fun '(ex_intro _ r H) => lt_clash other self r K H)))).
Qed.
Print Assumptions C35_real_order_refuted.
Example C35_real_order_refuted_ex : clash (num_of (box_inf false)) (num_of box_nan).
Proof. left; split; reflexivity. Qed.

(* Comparisons of an int with an int or a float. *)
Theorem C35_real_int_comparison : forall self other r, is_int self = true ->
  (int_eq_post self other r <-> (r = true <-> x_eq (num_of self) (num_of other))) /\
  (int_ge_post self other r <-> (r = true <-> x_le (num_of other) (num_of self))) /\
  (int_lt_post self other r <-> (r = true <-> x_lt (num_of self) (num_of other))).
Proof.
  intros self other r K.
  exact (conj (int_eq_right self other r K) (conj (int_ge_right self other r K) (int_lt_right self other r K))).
Qed.
Print Assumptions C35_real_int_comparison.
Example C35_real_int_comparison_ex : is_int (VBool true : pynum xval) = true.
Proof. reflexivity. Qed.

(* A literal stands for the exact value of the Python float. *)
Theorem C35_real_literal : forall lit, num_of (real_literal lit) = number lit.
Proof. exact literal_number. Qed.
Print Assumptions C35_real_literal.
Example C35_real_literal_ex :
  num_of (real_literal (S754_finite true 3 (-1))) = XFin (Q2Qc (-3 # 2)).
Proof. cbn; f_equal; apply Qc_is_canon; reflexivity. Qed.

(* int(x) is right exactly for non-negative and for whole numbers. *)
Theorem C35_real_int_iff : forall self q, num_of self = XFin q ->
  (real_int self = truncate q <-> (0 <= q)%Qc \/ Qden q = 1%positive).
Proof. exact real_int_right. Qed.
Print Assumptions C35_real_int_iff.
Theorem C35_real_int_refuted :
  exists self q, num_of self = XFin q /\ int_pre self /\ real_int self = -1 /\ truncate q = 0.
Proof.
  exists (VFloat (XFin (Q2Qc (-1 # 2)))), (Q2Qc (-1 # 2)).
  split; [reflexivity|]; split; [apply finite_fin|]; split; reflexivity.
Qed.
Print Assumptions C35_real_int_refuted.

(* Two ints in variables of type float: Python's sum is an int, the contract's is a float. *)
Theorem C35_real_class_refuted : exists self other r,
  is_int self = true /\ is_int other = true /\ add_post self other r /\ is_int r = false.
Proof.
  exists (VInt 1), (VInt 2), (VFloat (x_add (XFin (Q2Qc (inject_Z 1))) (XFin (Q2Qc (inject_Z 2))))).
  split; [reflexivity|]; split; [reflexivity|]; split; [|reflexivity].
  apply add_right; reflexivity.
Qed.
Print Assumptions C35_real_class_refuted.

(* The real encoding does not round: 2^53 + 1 is 2^53 in Python. *)
Theorem C35_real_rounding_refuted : exists a b r,
  double a /\ double b /\ add_post (real_literal a) (real_literal b) r /\
  num_of r <> number (SFadd 53 1024 a b).
Proof.
  exists (S754_finite false (2 ^ 52) 1), (S754_finite false (2 ^ 52) (-52)).
  eexists; split; [reflexivity|]; split; [reflexivity|]; split; [apply add_right; reflexivity|].
  rewrite !literal_number; vm_compute; intros H; discriminate H.
Qed.
Print Assumptions C35_real_rounding_refuted.

(* ------------------------------------------------------------------------------------ *)
(* Single precision encoding. *)

(* Comparisons follow the IEEE rules for all floats and for ints of at most 24 bits. *)
Theorem C35_ieee32_order_partial : forall v w,
  single_object v -> small_object v -> single_object w -> small_object w ->
  (lt32 v w = true <-> x_lt (number32 v) (number32 w)) /\
  (le32 v w = true <-> x_le (number32 v) (number32 w)) /\
  (gt32 v w = true <-> x_lt (number32 w) (number32 v)) /\
  (ge32 v w = true <-> x_le (number32 w) (number32 v)) /\
  (eq32 v w = true <-> x_eq (number32 v) (number32 w)).
Proof. exact compare32. Qed.
Print Assumptions C35_ieee32_order_partial.
Example C35_ieee32_order_ex :
  single_object (VFloat (S754_finite true (2 ^ 23) (-3))) /\ small_object (VInt (-5)) /\
  lt32 (VInt (-5)) (VFloat (S754_finite false (2 ^ 23) (-3))) = true /\
  lt32 (VFloat S754_nan) (VFloat (S754_infinity false)) = false.
Proof. repeat split; unfold small; vm_compute; discriminate. Qed.

(* Equality of ints: right if both have at most 24 bits ... *)
Theorem C35_ieee32_int_eq_partial : forall v w r,
  is_int v = true -> small_object v -> single_object w -> small_object w ->
  (int_eq_post32 v w r <-> (r = true <-> x_eq (number32 v) (number32 w))).
Proof. exact int_eq32_right. Qed.
Print Assumptions C35_ieee32_int_eq_partial.
Example C35_ieee32_int_eq_ex : small_object (VInt 7) /\ single_object (VBool true).
Proof. split; [vm_compute; discriminate|exact Logic.I]. Qed.

(* ... and contradictory for two different ints that round to the same float. *)
Theorem C35_ieee32_int_eq_refuted :
  exists a b, a <> b /\ ~ exists r, int_eq_post32 (VInt a) (VInt b) r.
Proof.
  exists 16777216, 16777217; split; [discriminate|]; intros [r H].
  refine (int_eq32_clash 16777216 16777217 r _ _ _ _ H); try discriminate; reflexivity.
Qed.
Print Assumptions C35_ieee32_int_eq_refuted.

(* A literal is the single that struct.pack rounds to; every bit pattern is a single. *)
Theorem C35_ieee32_literal : forall lit x,
  to_single lit = Some x -> single x -> literal32 lit = Some (VFloat x).
Proof. exact literal_right. Qed.
Print Assumptions C35_ieee32_literal.
Theorem C35_ieee32_bits : forall i, single (decode32 i).
Proof. exact decode_single. Qed.
Print Assumptions C35_ieee32_bits.
Example C35_ieee32_literal_ex : (* 0.1 *)
  literal32 (S754_finite false 7205759403792794 (-56)) = Some (VFloat (S754_finite false 13421773 (-27))) /\
  to_single (S754_finite false 7205759403792794 (-56)) = Some (S754_finite false 13421773 (-27)) /\
  single (S754_finite false 13421773 (-27)).
Proof. vm_compute; auto. Qed.

(* A literal that is too large for single precision makes the translation fail. *)
Theorem C35_ieee32_literal_refuted : exists lit, double lit /\ literal32 lit = None.
Proof. exists (S754_finite false (2 ^ 52) 200); split; reflexivity. Qed.
Print Assumptions C35_ieee32_literal_refuted.

(* Python's floats have 53 digits: different literals become equal. *)
Theorem C35_ieee32_precision_refuted : exists a b x y,
  double a /\ double b /\ SFeqb a b = false /\
  literal32 a = Some x /\ literal32 b = Some y /\ eq32 x y = true.
Proof.
  exists (S754_finite false (2 ^ 52) (-28)), (S754_finite false (2 ^ 52 + 2 ^ 28) (-28)).
  eexists; eexists; split; [reflexivity|]; split; [reflexivity|]; split; [reflexivity|].
  split; [reflexivity|]; split; [reflexivity|]; reflexivity.
Qed.
Print Assumptions C35_ieee32_precision_refuted.

(* The truth value is right except for -0.0, which counts as true; a division by -0.0 passes
   the check for a zero divisor. *)
Theorem C35_ieee32_bool_iff : forall v, single_object v -> small_object v ->
  (bool32 v <-> unbox32 v = S754_zero true \/ x_true (number32 v)).
Proof. exact bool32_iff. Qed.
Print Assumptions C35_ieee32_bool_iff.
Theorem C35_ieee32_zero_refuted : exists v,
  single_object v /\ number32 v = XFin (Q2Qc 0) /\ bool32 v /\ forall w, truediv32_pre w v.
Proof.
  exists (VFloat (S754_zero true)); split; [reflexivity|]; split; [reflexivity|].
  split; [discriminate|intros w; discriminate].
Qed.
Print Assumptions C35_ieee32_zero_refuted.

(* int(x) is right exactly for non-negative and for whole numbers, and unspecified (but not
   excluded) for infinities and nan. *)
Theorem C35_ieee32_int_iff : forall v q,
  single_object v -> small_object v -> number32 v = XFin q ->
  exists z, int32 v = Some z /\ (z = truncate q <-> (0 <= q)%Qc \/ Qden q = 1%positive).
Proof. exact int32_right. Qed.
Print Assumptions C35_ieee32_int_iff.
Theorem C35_ieee32_int_refuted : exists v q,
  single_object v /\ number32 v = XFin q /\ int32 v = Some (-1) /\ truncate q = 0.
Proof.
  exists (VFloat (S754_finite true (2 ^ 23) (-24))), (Q2Qc (-1 # 2)).
  split; [reflexivity|]; split; [|split; reflexivity].
  cbn; f_equal; apply Qc_is_canon; reflexivity.
Qed.
Print Assumptions C35_ieee32_int_refuted.

(* ------------------------------------------------------------------------------------ *)
(* Default encoding: consistent, and exact on ints. *)
Theorem C35_default : forall (self other : opaque) op cmp,
  (exists r, arith_post_d op self other r) /\ (exists r, compare_post_d cmp self other r) /\
  (exists r, bool_post_d self r) /\ (exists r, neg_post_d self r) /\
  (is_int self = true -> is_int other = true ->
   (forall r, arith_post_d op self other r <-> r = VInt (op (int_of self) (int_of other))) /\
   (forall r, compare_post_d cmp self other r <-> r = cmp (int_of self) (int_of other))).
Proof.
  intros self other op cmp.
  split; [exists (VInt (op (int_of self) (int_of other))); intros _; reflexivity|].
  split; [exists (cmp (int_of self) (int_of other)); intros _; reflexivity|].
  split; [exists (negb (int_of self =? 0)); intros _; reflexivity|].
  split; [exists (VInt (- int_of self)); intros _; reflexivity|].
  intros A B; split; intros r; split.
  - intros H; apply H; auto.
  - intros -> _; reflexivity.
  - intros H; apply H; auto.
  - intros -> _; reflexivity.
Qed.
Print Assumptions C35_default.
