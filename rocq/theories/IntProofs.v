From Coq Require Import List ZArith Bool Lia.
From Coq Require Import Sorting.Permutation Sorting.Sorted.
From Verif Require Import IntModel IntSpec.
Import ListNotations.
Open Scope Z_scope.

(** * Division *)

Lemma py_divmod_unique : forall a b q r q' r', b <> 0 ->
  py_divmod a b q r -> py_divmod a b q' r' -> q = q' /\ r = r'.
Proof.
  intros a b q r q' r' Hb (E & P & N) (E' & P' & N').
  assert (D : (q - q') * b = r' - r) by lia.
  destruct (Z_lt_le_dec 0 b) as [B|B].
  - specialize (P B). specialize (P' B).
    assert (q = q') by nia. subst. lia.
  - assert (B' : b < 0) by lia. specialize (N B'). specialize (N' B').
    assert (q = q') by nia. subst. lia.
Qed.

Lemma py_divmod_zdiv : forall a b, b <> 0 -> py_divmod a b (a / b) (a mod b).
Proof.
  intros a b Hb. split; [|split]; intros.
  - rewrite Z.mul_comm. apply Z.div_mod. assumption.
  - apply Z.mod_pos_bound. assumption.
  - apply Z.mod_neg_bound. assumption.
Qed.

Lemma floordiv_value : forall a b, b <> 0 ->
  (exists r, py_divmod a b (int_floordiv a b) r) <-> (0 < b \/ (b | a)).
Proof.
  intros a b Hb. unfold int_floordiv, viper_div. split.
  - intros [r H]. destruct (Z.ltb_spec 0 b) as [B|B]; [left; assumption|].
    right. destruct (py_divmod_unique _ _ _ _ _ _ Hb H (py_divmod_zdiv a b Hb)) as [Q _].
    exists (a / b).
    pose proof (Z.div_mod a (- b) ltac:(lia)) as D1.
    pose proof (Z.mod_pos_bound a (- b) ltac:(lia)) as M1.
    pose proof (Z.div_mod a b Hb) as D2.
    pose proof (Z.mod_neg_bound a b ltac:(lia)) as M2.
    rewrite <- Q. nia.
  - intros [B|[k K]].
    + exists (a mod b). destruct (Z.ltb_spec 0 b); [|lia]. apply py_divmod_zdiv. assumption.
    + exists 0. destruct (Z.ltb_spec 0 b) as [B|B].
      * subst a. rewrite Z.div_mul by assumption. split; [lia|]. split; intros; lia.
      * subst a. replace (k * b) with (- k * - b) by ring. rewrite Z.div_mul by lia.
        split; [lia|]. split; intros; lia.
Qed.

Lemma mod_value : forall a b, b <> 0 ->
  (exists q, py_divmod a b q (int_mod a b)) <-> (0 < b \/ (b | a)).
Proof.
  intros a b Hb. unfold int_mod, viper_mod. split.
  - intros [q H]. destruct (Z_lt_le_dec 0 b) as [B|B]; [left; assumption|]. right.
    destruct H as (E & _ & N). specialize (N ltac:(lia)).
    pose proof (Z.mod_pos_bound a (Z.abs b) ltac:(lia)) as M.
    exists q. lia.
  - intros [B|[k K]].
    + exists (a / b). rewrite Z.abs_eq by lia. apply py_divmod_zdiv. assumption.
    + exists k. subst a.
      replace ((k * b) mod Z.abs b) with 0.
      * split; [lia|]. split; intros; lia.
      * symmetry. destruct (Z_lt_le_dec 0 b) as [B|B].
        -- rewrite Z.abs_eq by lia. apply Z.mod_mul. lia.
        -- rewrite Z.abs_neq by lia. replace (k * b) with (- k * - b) by ring.
           apply Z.mod_mul. lia.
Qed.

Lemma divmod_positive : forall a b, 0 < b ->
  py_divmod a b (int_floordiv a b) (int_mod a b).
Proof.
  intros a b B. unfold int_floordiv, viper_div, int_mod, viper_mod.
  destruct (Z.ltb_spec 0 b); [|lia]. rewrite Z.abs_eq by lia. apply py_divmod_zdiv. lia.
Qed.

(** * Shifts *)

Lemma sf8_pow : forall n, 0 <= n <= 8 -> shift_factor8 n = 2 ^ n.
Proof.
  intros n H.
  assert (C : n = 0 \/ n = 1 \/ n = 2 \/ n = 3 \/ n = 4 \/ n = 5 \/ n = 6 \/ n = 7 \/ n = 8) by lia.
  repeat (destruct C as [C|C]; [subst; reflexivity|]). subst. reflexivity.
Qed.

Lemma sf32_pow : forall n, 0 <= n <= 32 -> shift_factor32 n = 2 ^ n.
Proof.
  intros n H. unfold shift_factor32.
  destruct (Z.leb_spec n 8); [apply sf8_pow; lia|].
  destruct (Z.leb_spec n 16).
  { rewrite sf8_pow by lia. change 256 with (2 ^ 8). rewrite <- Z.pow_add_r by lia. f_equal. lia. }
  destruct (Z.leb_spec n 24).
  { rewrite sf8_pow by lia. change 256 with (2 ^ 8). rewrite <- !Z.pow_add_r by lia. f_equal. lia. }
  rewrite sf8_pow by lia. change 256 with (2 ^ 8). rewrite <- !Z.pow_add_r by lia. f_equal. lia.
Qed.

Lemma sf64_pow : forall n, 0 <= n <= 64 -> shift_factor64 n = 2 ^ n.
Proof.
  intros n H. unfold shift_factor64.
  destruct (Z.leb_spec n 32); [apply sf32_pow; lia|].
  rewrite !sf32_pow by lia. rewrite <- Z.pow_add_r by lia. f_equal. lia.
Qed.

Lemma pow2_pos : forall n, 0 <= n -> 0 < 2 ^ n.
Proof. intros. apply Z.pow_pos_nonneg; lia. Qed.

Lemma viper_div_pos : forall a b, 0 < b -> viper_div a b = a / b.
Proof. intros a b H. unfold viper_div. destruct (Z.ltb_spec 0 b); [reflexivity|lia]. Qed.

Lemma rshift_div : forall a n, 0 <= n -> py_rshift a n (a / 2 ^ n).
Proof.
  intros a n H. unfold py_rshift. pose proof (pow2_pos n H).
  pose proof (Z.div_mod a (2 ^ n) ltac:(lia)). pose proof (Z.mod_pos_bound a (2 ^ n) ltac:(lia)). nia.
Qed.

Lemma prim_lshift_small : forall w a n, 0 <= n <= 64 -> py_lshift a n (prim_lshift w a n).
Proof.
  intros w a n H. unfold py_lshift, prim_lshift.
  destruct (Z.leb_spec 0 n); [|lia]. destruct (Z.leb_spec n 64); [|lia]. cbn [andb].
  rewrite sf64_pow by lia. reflexivity.
Qed.

Lemma prim_rshift_small : forall w a n, 0 <= n <= 64 -> py_rshift a n (prim_rshift w a n).
Proof.
  intros w a n H. unfold prim_rshift.
  destruct (Z.leb_spec 0 n); [|lia]. destruct (Z.leb_spec n 64); [|lia]. cbn [andb].
  rewrite sf64_pow by lia. rewrite viper_div_pos by (apply pow2_pos; lia). apply rshift_div. lia.
Qed.

Lemma prim_rshift_nonneg : forall w a n, 0 <= w -> 0 <= a -> prim_rshift_pre w a n = true ->
  py_rshift a n (prim_rshift w a n).
Proof.
  intros w a n W A P. unfold prim_rshift_pre, prim_lshift_pre, INT_MAX in P.
  rewrite !andb_true_iff in P. destruct P as [[[P1 P2] P3] P4].
  apply Z.leb_le in P3. apply Z.leb_le in P4.
  destruct (Z_le_gt_dec n 64) as [L|L]; [apply prim_rshift_small; lia|].
  unfold prim_rshift. destruct (Z.leb_spec 0 n); [|lia]. destruct (Z.leb_spec n 64); [lia|]. cbn [andb].
  destruct (Z.leb_spec 0 a); [|lia]. unfold fromBV, shrBV, toBV.
  assert (A' : a <= 2 ^ w - 1).
  { apply orb_true_iff in P2. destruct P2 as [P2|P2]; [discriminate|]. apply Z.leb_le in P2. lia. }
  rewrite !Z.mod_small by lia. rewrite Z.shiftr_div_pow2 by lia. apply rshift_div. lia.
Qed.

Lemma lshift_boxed : forall w a b, 0 <= w -> shift_pre w a b = true -> unbox b <= 64 ->
  exists z, int_lshift w a b = PyInt z /\ py_lshift (unbox a) (unbox b) z.
Proof.
  intros w a b W P L. eexists. split; [reflexivity|]. apply prim_lshift_small.
  unfold shift_pre in P. rewrite !andb_true_iff in P. destruct P as [[_ P] _].
  split; [|assumption]. apply orb_true_iff in P. destruct P as [P|P].
  - destruct b as [|[]]; cbn in *; try discriminate; lia.
  - apply Z.leb_le in P. exact P.
Qed.

Lemma rshift_boxed : forall w a b, 0 <= w -> shift_pre w a b = true ->
  unbox b <= 64 \/ 0 <= unbox a ->
  exists z, int_rshift w a b = PyInt z /\ py_rshift (unbox a) (unbox b) z.
Proof.
  intros w a b W P L. eexists. split; [reflexivity|].
  assert (B : 0 <= unbox b).
  { unfold shift_pre in P. rewrite !andb_true_iff in P. destruct P as [[_ P] _].
    apply orb_true_iff in P. destruct P as [P|P].
    - destruct b as [|[]]; cbn in *; try discriminate; lia.
    - apply Z.leb_le in P. exact P. }
  destruct (Z_le_gt_dec (unbox b) 64) as [L'|L']; [apply prim_rshift_small; lia|].
  destruct L as [L|L]; [lia|].
  apply prim_rshift_nonneg; [assumption|assumption|].
  destruct b as [n|[]]; cbn [unbox] in *; try lia.
  unfold prim_rshift_pre, prim_lshift_pre. unfold shift_pre in P. cbn [is_bool orb unbox] in P.
  rewrite !andb_true_iff in P. destruct P as [[[P1 P2] P3] P4].
  rewrite P3, P4, !andb_true_r.
  destruct a as [x|x]; cbn [is_bool orb unbox] in *.
  - rewrite P1, P2. reflexivity.
  - apply Z.leb_le in P4. unfold INT_MIN, INT_MAX in *. apply andb_true_iff.
    split; apply orb_true_iff; right; apply Z.leb_le; destruct x; lia.
Qed.

Lemma small_width_amount : forall w a b, 0 <= w <= 6 -> shift_pre w a b = true -> unbox b <= 64.
Proof.
  intros w a b W P. unfold shift_pre in P. rewrite !andb_true_iff in P. destruct P as [_ P].
  destruct b as [n|[]]; cbn [is_bool orb unbox] in *; try lia.
  apply Z.leb_le in P. unfold INT_MAX in P.
  assert (2 ^ w <= 2 ^ 6) by (apply Z.pow_le_mono_r; lia). change (2 ^ 6) with 64 in *. lia.
Qed.

(** * Bitwise operators *)

Lemma bitop_land : forall a b r, py_bitop andb a b r <-> r = Z.land a b.
Proof.
  intros a b r. split; intros H.
  - apply Z.bits_inj'. intros i I. rewrite (H i I), Z.land_spec. reflexivity.
  - subst. intros i I. apply Z.land_spec.
Qed.
Lemma bitop_lor : forall a b r, py_bitop orb a b r <-> r = Z.lor a b.
Proof.
  intros a b r. split; intros H.
  - apply Z.bits_inj'. intros i I. rewrite (H i I), Z.lor_spec. reflexivity.
  - subst. intros i I. apply Z.lor_spec.
Qed.
Lemma bitop_lxor : forall a b r, py_bitop xorb a b r <-> r = Z.lxor a b.
Proof.
  intros a b r. split; intros H.
  - apply Z.bits_inj'. intros i I. rewrite (H i I), Z.lxor_spec. reflexivity.
  - subst. intros i I. apply Z.lxor_spec.
Qed.

Section BV.
  Variable w : Z.
  Hypothesis W : 0 <= w.

  Lemma mod_bits : forall a i, 0 <= i -> Z.testbit (a mod 2 ^ w) i = if i <? w then Z.testbit a i else false.
  Proof.
    intros a i I. destruct (Z.ltb_spec i w).
    - apply Z.mod_pow2_bits_low. lia.
    - apply Z.mod_pow2_bits_high. lia.
  Qed.

  Lemma land_mod : forall a b, Z.land (a mod 2 ^ w) (b mod 2 ^ w) = Z.land a b mod 2 ^ w.
  Proof.
    intros a b. apply Z.bits_inj'. intros i I.
    rewrite Z.land_spec, !mod_bits, Z.land_spec by assumption. destruct (i <? w); reflexivity.
  Qed.
  Lemma lor_mod : forall a b, Z.lor (a mod 2 ^ w) (b mod 2 ^ w) = Z.lor a b mod 2 ^ w.
  Proof.
    intros a b. apply Z.bits_inj'. intros i I.
    rewrite Z.lor_spec, !mod_bits, Z.lor_spec by assumption. destruct (i <? w); reflexivity.
  Qed.
  Lemma lxor_mod : forall a b, Z.lxor (a mod 2 ^ w) (b mod 2 ^ w) = Z.lxor a b mod 2 ^ w.
  Proof.
    intros a b. apply Z.bits_inj'. intros i I.
    rewrite Z.lxor_spec, !mod_bits, Z.lxor_spec by assumption. destruct (i <? w); reflexivity.
  Qed.

  (** a number is below 2^w iff all bits from w on vanish *)
  Definition inr (a : Z) : Prop := - 2 ^ w <= a <= 2 ^ w - 1.

  (** within the range, the bits from [w] on are all equal to the sign *)
  Lemma high_bits : forall a i, inr a -> w <= i -> Z.testbit a i = (a <? 0).
  Proof.
    intros a i R I. pose proof (pow2_pos w W) as P. unfold inr in R.
    destruct (Z.ltb_spec a 0) as [A|A].
    - replace a with (Z.lnot (Z.lnot a)) by (rewrite Z.lnot_involutive; reflexivity).
      rewrite Z.lnot_spec by lia. apply negb_true_iff.
      assert (B : 0 <= Z.lnot a < 2 ^ w) by (unfold Z.lnot; lia).
      destruct (Z.eq_dec (Z.lnot a) 0) as [->|N]; [apply Z.bits_0|].
      apply Z.bits_above_log2; [lia|]. apply Z.log2_lt_pow2; [lia|].
      apply Z.lt_le_trans with (2 ^ w); [lia|]. apply Z.pow_le_mono_r; lia.
    - destruct (Z.eq_dec a 0) as [->|N]; [apply Z.bits_0|].
      apply Z.bits_above_log2; [lia|]. apply Z.log2_lt_pow2; [lia|].
      apply Z.lt_le_trans with (2 ^ w); [lia|]. apply Z.pow_le_mono_r; lia.
  Qed.

  Lemma mod_id_iff : forall r (s : bool), (forall i, w <= i -> Z.testbit r i = s) ->
    (r mod 2 ^ w = r <-> 0 <= r).
  Proof.
    intros r s H. pose proof (pow2_pos w W) as P. split.
    - intros E. rewrite <- E. apply Z.mod_pos_bound. assumption.
    - intros N. apply Z.bits_inj'. intros i I. rewrite mod_bits by assumption.
      destruct (Z.ltb_spec i w) as [L|L]; [reflexivity|].
      destruct s; [|symmetry; apply H; assumption].
      exfalso.
      assert (B : Z.testbit r (Z.max w (Z.log2 r + 1)) = false)
        by (apply Z.bits_above_log2; lia).
      rewrite H in B by lia. discriminate.
  Qed.

  Lemma and_value : forall a b, inr a -> inr b ->
    (Z.land a b mod 2 ^ w = Z.land a b <-> 0 <= Z.land a b).
  Proof.
    intros a b A B. apply (mod_id_iff _ ((a <? 0) && (b <? 0))). intros i I.
    rewrite Z.land_spec, !high_bits by assumption. reflexivity.
  Qed.
  Lemma or_value : forall a b, inr a -> inr b ->
    (Z.lor a b mod 2 ^ w = Z.lor a b <-> 0 <= Z.lor a b).
  Proof.
    intros a b A B. apply (mod_id_iff _ ((a <? 0) || (b <? 0))). intros i I.
    rewrite Z.lor_spec, !high_bits by assumption. reflexivity.
  Qed.
  Lemma xor_value : forall a b, inr a -> inr b ->
    (Z.lxor a b mod 2 ^ w = Z.lxor a b <-> 0 <= Z.lxor a b).
  Proof.
    intros a b A B. apply (mod_id_iff _ (xorb (a <? 0) (b <? 0))). intros i I.
    rewrite Z.lxor_spec, !high_bits by assumption. reflexivity.
  Qed.
End BV.

Lemma bitop_pre_range : forall w a b, 1 <= w -> bitop_pre w a b = true ->
  inr w (unbox a) /\ inr w (unbox b).
Proof.
  intros w a b W P. unfold bitop_pre in P. rewrite !andb_true_iff in P.
  destruct P as [[[P1 P2] P3] P4]. unfold inr.
  assert (T : 2 <= 2 ^ w) by (change 2 with (2 ^ 1) at 1; apply Z.pow_le_mono_r; lia).
  unfold INT_MIN, INT_MAX in *.
  split.
  - destruct a as [x|[]]; cbn [is_bool orb unbox] in *; [|lia|lia].
    apply Z.leb_le in P1. apply Z.leb_le in P2. lia.
  - destruct b as [x|[]]; cbn [is_bool orb unbox] in *; [|lia|lia].
    apply Z.leb_le in P3. apply Z.leb_le in P4. lia.
Qed.

Lemma b2z_range : forall (b : bool) w, 0 <= w -> inr w (if b then 1 else 0) \/ w = 0.
Proof.
  intros b w W. destruct (Z.eq_dec w 0); [right; assumption|left].
  assert (T : 2 <= 2 ^ w) by (change 2 with (2 ^ 1) at 1; apply Z.pow_le_mono_r; lia).
  unfold inr. destruct b; lia.
Qed.

Lemma int_and_value : forall w a b, 1 <= w -> bitop_pre w a b = true ->
  (py_bitop_val andb a b (int_and w a b) <-> 0 <= Z.land (unbox a) (unbox b)).
Proof.
  intros w a b W P. destruct (bitop_pre_range w a b W P) as [A B].
  assert (W0 : 0 <= w) by lia.
  unfold int_and.
  destruct a as [x|x], b as [y|y]; cbn [is_bool andb py_bitop_val];
    try (unfold fromBV, andBV, toBV; rewrite land_mod by assumption; split;
      [ intros (z & E & S); inversion E; subst z; apply bitop_land in S;
        apply (and_value w W0 _ _ A B); exact S
      | intros N; eexists; split; [reflexivity|]; apply bitop_land;
        apply (and_value w W0 _ _ A B); exact N ]).
  cbn [bool_unbox]. destruct x, y; cbn; split; intros; try reflexivity; lia.
Qed.

Lemma int_or_value : forall w a b, 1 <= w -> bitop_pre w a b = true ->
  (py_bitop_val orb a b (int_or w a b) <-> 0 <= Z.lor (unbox a) (unbox b)).
Proof.
  intros w a b W P. destruct (bitop_pre_range w a b W P) as [A B].
  assert (W0 : 0 <= w) by lia.
  unfold int_or.
  destruct a as [x|x], b as [y|y]; cbn [is_bool andb py_bitop_val];
    try (unfold fromBV, orBV, toBV; rewrite lor_mod by assumption; split;
      [ intros (z & E & S); inversion E; subst z; apply bitop_lor in S;
        apply (or_value w W0 _ _ A B); exact S
      | intros N; eexists; split; [reflexivity|]; apply bitop_lor;
        apply (or_value w W0 _ _ A B); exact N ]).
  cbn [bool_unbox]. destruct x, y; cbn; split; intros; try reflexivity; lia.
Qed.

Lemma int_xor_value : forall w a b, 1 <= w -> bitop_pre w a b = true ->
  (py_bitop_val xorb a b (int_xor w a b) <-> 0 <= Z.lxor (unbox a) (unbox b)).
Proof.
  intros w a b W P. destruct (bitop_pre_range w a b W P) as [A B].
  assert (W0 : 0 <= w) by lia.
  unfold int_xor.
  destruct a as [x|x], b as [y|y]; cbn [is_bool andb py_bitop_val];
    try (unfold fromBV, xorBV, toBV; rewrite lxor_mod by assumption; split;
      [ intros (z & E & S); inversion E; subst z; apply bitop_lxor in S;
        apply (xor_value w W0 _ _ A B); exact S
      | intros N; eexists; split; [reflexivity|]; apply bitop_lxor;
        apply (xor_value w W0 _ _ A B); exact N ]).
  cbn [bool_unbox]. destruct x, y; cbn; split; intros; try reflexivity; lia.
Qed.

(** Non-negative operands always work, for all three operators. *)
Lemma bitops_nonneg : forall w a b, 1 <= w -> bitop_pre w a b = true ->
  0 <= unbox a -> 0 <= unbox b ->
  py_bitop_val andb a b (int_and w a b) /\ py_bitop_val orb a b (int_or w a b) /\
  py_bitop_val xorb a b (int_xor w a b).
Proof.
  intros w a b W P A B. split; [|split].
  - apply int_and_value; try assumption. apply Z.land_nonneg. auto.
  - apply int_or_value; try assumption. apply Z.lor_nonneg. auto.
  - apply int_xor_value; try assumption. apply Z.lxor_nonneg. tauto.
Qed.

(** * Other builtins *)

Lemma pow_fuel_ok : forall f x n, 0 <= n -> (Z.to_nat n <= f)%nat -> pow_fuel f x n = py_pow x n.
Proof.
  induction f as [|f IH]; intros x n N F.
  - assert (n = 0) by lia. subst. reflexivity.
  - cbn [pow_fuel]. destruct (Z.eqb_spec n 0) as [->|N0]; [reflexivity|].
    destruct (Z.eqb_spec n 1) as [->|N1]; [change (py_pow x 1) with (x * 1); ring|].
    destruct (Z.eqb_spec n 2) as [->|N2]; [change (py_pow x 2) with (x * (x * 1)); ring|].
    rewrite IH by lia. unfold py_pow.
    replace (Z.to_nat n) with (S (Z.to_nat (n - 1))) by lia. reflexivity.
Qed.

Lemma int_pow_ok : forall x n, int_pow_pre x n = true -> int_pow x n = py_pow x n.
Proof. intros x n P. apply Z.leb_le in P. apply pow_fuel_ok; [assumption|apply le_n]. Qed.

Lemma pow_axioms_ok : forall pw, pow_axioms pw -> forall x n, 0 <= n -> pw x n = py_pow x n.
Proof.
  intros pw [A0 AS] x n N. rewrite <- (Z2Nat.id n) by assumption. unfold py_pow. rewrite Nat2Z.id.
  induction (Z.to_nat n) as [|k IH]; [apply A0|].
  rewrite AS by lia. change (Nat.iter (S k) (Z.mul x) 1) with (x * Nat.iter k (Z.mul x) 1).
  rewrite <- IH. f_equal. f_equal. lia.
Qed.

Lemma pow_axioms_sat : pow_axioms py_pow.
Proof.
  split; [reflexivity|]. intros x n N. unfold py_pow.
  replace (Z.to_nat n) with (S (Z.to_nat (n - 1))) by lia. reflexivity.
Qed.

Lemma pow_unrolled_ok : forall pw x n r, pow_axioms pw -> int_pow_pre x n = true ->
  (pow_unrolled_post pw x n r <-> r = py_pow x n).
Proof.
  intros pw x n r A P. unfold pow_unrolled_post. rewrite int_pow_ok by assumption.
  rewrite (pow_axioms_ok pw A) by (apply Z.leb_le; exact P). tauto.
Qed.

Lemma bl8_ok : forall v, 0 <= v < 256 -> py_bit_length v (bit_length8 v).
Proof.
  intros v V. unfold bit_length8, py_bit_length. rewrite Z.abs_eq by lia.
  repeat match goal with |- context [if v <? ?k then _ else _] => destruct (Z.ltb_spec v k) end;
    split; intros; try lia; cbn; lia.
Qed.

Lemma bl_shift : forall v k b, 0 <= k -> 0 < v / 2 ^ k -> py_bit_length (v / 2 ^ k) b ->
  py_bit_length v (b + k).
Proof.
  intros v k b K Q (_ & H). specialize (H ltac:(lia)). destruct H as [B [L U]].
  pose proof (pow2_pos k K) as P.
  pose proof (Z.div_mod v (2 ^ k) ltac:(lia)) as D. pose proof (Z.mod_pos_bound v (2 ^ k) P) as M.
  rewrite Z.abs_eq in L, U by lia.
  assert (V : 0 < v) by nia.
  split; [lia|]. intros _. split; [lia|]. rewrite Z.abs_eq by lia.
  replace (b + k - 1) with (k + (b - 1)) by lia. replace (b + k) with (k + b) by lia.
  rewrite !Z.pow_add_r by lia. nia.
Qed.

Lemma bl32_ok : forall v, 0 <= v < 2 ^ 32 -> py_bit_length v (bit_length32 v).
Proof.
  intros v V. unfold bit_length32.
  rewrite !sf32_pow by lia. rewrite !viper_div_pos by (apply pow2_pos; lia).
  assert (Q : forall k, 0 <= k -> 2 ^ k <= v -> v < 2 ^ (k + 8) -> 0 < v / 2 ^ k < 256).
  { intros k K A B. split.
    - apply Z.div_str_pos. pose proof (pow2_pos k K). lia.
    - apply Z.div_lt_upper_bound; [apply pow2_pos; assumption|].
      rewrite Z.pow_add_r in B by lia. change (2 ^ 8) with 256 in B. exact B. }
  destruct (Z.ltb_spec v (2 ^ 8)); [apply bl8_ok; change (2 ^ 8) with 256 in *; lia|].
  destruct (Z.ltb_spec v (2 ^ 16)).
  { specialize (Q 8 ltac:(lia) ltac:(lia) ltac:(assumption)). apply bl_shift; [lia|lia|]. apply bl8_ok. lia. }
  destruct (Z.ltb_spec v (2 ^ 24)).
  { specialize (Q 16 ltac:(lia) ltac:(lia) ltac:(assumption)). apply bl_shift; [lia|lia|]. apply bl8_ok. lia. }
  specialize (Q 24 ltac:(lia) ltac:(lia) (proj2 V)). apply bl_shift; [lia|lia|]. apply bl8_ok. lia.
Qed.

Lemma bl64_ok : forall v, 0 <= v < 2 ^ 64 -> py_bit_length v (bit_length64 v).
Proof.
  intros v V. unfold bit_length64. rewrite !sf32_pow by lia.
  rewrite !viper_div_pos by (apply pow2_pos; lia).
  destruct (Z.ltb_spec v (2 ^ 32)); [apply bl32_ok; lia|].
  assert (Q : 0 < v / 2 ^ 32 < 2 ^ 32).
  { split; [apply Z.div_str_pos; pose proof (pow2_pos 32); lia|].
    apply Z.div_lt_upper_bound; [apply pow2_pos; lia|]. rewrite <- Z.pow_add_r by lia. exact (proj2 V). }
  apply bl_shift; [lia|lia|]. apply bl32_ok. lia.
Qed.

Lemma sil_abs_ok : forall a, sil_abs a = Z.abs a.
Proof. intros a. unfold sil_abs. destruct (Z.leb_spec 0 a); lia. Qed.

Lemma bit_length_ok : forall v, int_bit_length_pre v = true -> py_bit_length (unbox v) (int_bit_length v).
Proof.
  intros v P. unfold int_bit_length. rewrite sil_abs_ok.
  assert (A : 0 <= Z.abs (unbox v) < 2 ^ 64).
  { split; [lia|]. unfold int_bit_length_pre in P. rewrite !sf64_pow in P by lia.
    apply andb_true_iff in P. destruct P as [P1 P2].
    destruct v as [z|[]]; cbn [is_bool orb unbox] in *; [|reflexivity|reflexivity].
    apply Z.ltb_lt in P1. apply Z.ltb_lt in P2. lia. }
  pose proof (bl64_ok _ A) as [H0 H1]. split; intros H.
  - apply H0. lia.
  - rewrite (Z.abs_eq (Z.abs (unbox v))) in H1 by lia. apply H1. lia.
Qed.

Lemma invert_ok : forall v, exists z, int_invert v = PyInt z /\ py_invert (unbox v) z.
Proof.
  intros v. eexists. split; [reflexivity|]. intros i I.
  replace (- (1 + unbox v)) with (Z.lnot (unbox v)) by (unfold Z.lnot; lia).
  apply Z.lnot_spec. assumption.
Qed.

Lemma max2_ok : forall a b, py_max [unbox a; unbox b] (max2 a b).
Proof.
  intros a b. unfold max2, py_max. destruct (Z.ltb_spec (unbox b) (unbox a)); cbn; split;
    [auto|intros; intuition lia|auto|intros; intuition lia].
Qed.
Lemma min2_ok : forall a b, py_min [unbox a; unbox b] (min2 a b).
Proof.
  intros a b. unfold min2, py_min. destruct (Z.ltb_spec (unbox b) (unbox a)); cbn; split;
    [auto|intros; intuition lia|auto|intros; intuition lia].
Qed.

Lemma maxmin_list_sound : forall l m, (forall x, In x l -> is_bool x = false) ->
  In m (map unbox l) -> maxmin_list_post l m.
Proof.
  intros l m B I. apply in_map_iff in I. destruct I as (x & E & I). specialize (B x I).
  destruct x as [z|b]; [|discriminate]. cbn in E. subst z. exact I.
Qed.
Lemma max_list_sound : forall l m, (forall x, In x l -> is_bool x = false) ->
  py_max (map unbox l) m \/ py_min (map unbox l) m -> maxmin_list_post l m.
Proof. intros l m B [[I _]|[I _]]; apply maxmin_list_sound; assumption. Qed.

(** sorted *)

Lemma occ_perm : forall a b : list pyint, (forall x, occ x a = occ x b) <-> Permutation a b.
Proof.
  intros a b. symmetry. apply (Permutation_count_occ pyint_eq_dec).
Qed.

Lemma perm_sum : forall a b : list pyint, Permutation a b -> sumz (map unbox a) = sumz (map unbox b).
Proof. induction 1; cbn; lia. Qed.

Lemma SS_nth : forall r : list pyint,
  StronglySorted (fun a b => unbox a <= unbox b) r <->
  (forall i1 i2, 0 <= i1 -> i1 < i2 -> i2 < lenZ r -> getz r i1 <= getz r i2).
Proof.
  unfold getz, lenZ. intros r. split.
  - induction 1 as [|x r SS IH F]; intros i1 i2 A B C; [cbn in C; lia|].
    replace (Z.to_nat i2) with (S (Z.to_nat (i2 - 1))) by lia. cbn [nth].
    cbn [length] in C. destruct (Z.eq_dec i1 0) as [->|N].
    + cbn. rewrite Forall_forall in F. apply F. apply nth_In. lia.
    + replace (Z.to_nat i1) with (S (Z.to_nat (i1 - 1))) by lia. cbn [nth]. apply IH; lia.
  - induction r as [|x r IH]; intros H; constructor.
    + apply IH. intros i1 i2 A B C. specialize (H (i1 + 1) (i2 + 1)). cbn [length] in H.
      replace (Z.to_nat (i1 + 1)) with (S (Z.to_nat i1)) in H by lia.
      replace (Z.to_nat (i2 + 1)) with (S (Z.to_nat i2)) in H by lia. cbn [nth] in H. apply H; lia.
    + rewrite Forall_forall. intros y Y. apply In_nth with (d := PyInt 0) in Y.
      destruct Y as (n & L & E). specialize (H 0 (Z.of_nat n + 1)). cbn [length] in H.
      replace (Z.to_nat (Z.of_nat n + 1)) with (S n) in H by lia. cbn in H. rewrite E in H. apply H; lia.
Qed.

Lemma getz_in : forall (l : list pyint) i, 0 <= i < lenZ l -> In (nth (Z.to_nat i) l (PyInt 0)) l.
Proof. intros l i H. unfold lenZ in H. apply nth_In. lia. Qed.

Lemma in_getz : forall (l : list pyint) x, In x l -> exists i, 0 <= i < lenZ l /\ getz l i = unbox x.
Proof.
  intros l x I. apply In_nth with (d := PyInt 0) in I. destruct I as (n & L & E).
  exists (Z.of_nat n). unfold lenZ, getz. rewrite Nat2Z.id, E. split; [lia|reflexivity].
Qed.

Lemma sorted_ok : forall r rs, sorted_post r rs <-> py_sorted r rs.
Proof.
  intros r rs. split.
  - intros (L & O & S & M & _). split; [apply occ_perm; assumption|]. apply SS_nth. assumption.
  - intros [P S]. pose proof (proj1 (SS_nth rs) S) as S'; clear S; rename S' into S.
    assert (L : lenZ rs = lenZ r) by (unfold lenZ; rewrite (Permutation_length P); reflexivity).
    split; [assumption|]. split; [apply occ_perm; assumption|].
    split; [apply perm_sum; assumption|]. split; [assumption|].
    assert (ELT : forall i, 0 <= i < lenZ r -> exists k, 0 <= k < lenZ rs /\ getz rs k = getz r i).
    { intros i I. apply in_getz. apply Permutation_in with r; [assumption|]. apply getz_in. assumption. }
    split; [|split].
    + intros L1. destruct r as [|x [|y r]]; unfold lenZ in L1; cbn in L1; try lia.
      apply Permutation_length_1_inv in P. assumption.
    + intros L1 i I. destruct (ELT i I) as (k & K & E). rewrite <- E.
      destruct (Z.eq_dec k 0) as [->|N]; [lia|]. apply S; lia.
    + intros L1 i I. destruct (ELT i I) as (k & K & E). rewrite <- E.
      destruct (Z.eq_dec k (lenZ r - 1)) as [->|N]; [lia|]. apply S; lia.
Qed.

(** sum *)

Lemma fold_left_add : forall l a, fold_left Z.add l a = a + fold_left Z.add l 0.
Proof.
  induction l as [|x l IH]; intros a; cbn; [lia|]. rewrite (IH (a + x)), (IH x). lia.
Qed.

Lemma sum_axioms_ok : forall f, sum_axioms f -> forall l, f l = py_sum l.
Proof.
  intros f (A0 & A1 & A2 & _). induction l as [|x l IH]; [exact A0|].
  change (x :: l) with ([x] ++ l). rewrite A2, A1, IH. unfold py_sum. cbn.
  rewrite (fold_left_add l x). lia.
Qed.

Lemma py_sum_perm : forall a b, Permutation a b -> py_sum a = py_sum b.
Proof.
  unfold py_sum. induction 1; cbn; try congruence.
  - rewrite (fold_left_add l x), (fold_left_add l' x). lia.
  - rewrite (fold_left_add l (y + x)), (fold_left_add l (x + y)). lia.
Qed.

Lemma sum_axioms_sat : sum_axioms py_sum.
Proof.
  split; [reflexivity|]. split; [reflexivity|]. split.
  - intros a b. unfold py_sum. rewrite fold_left_app, fold_left_add. reflexivity.
  - intros a b H. apply py_sum_perm. apply (Permutation_count_occ Z.eq_dec). assumption.
Qed.

Definition int_refs (sr : list ref) : Prop := forall r, In r sr -> ref_is_int r = true.

Lemma seq_to_ints_value : forall f sr, seq_to_ints_post f sr -> int_refs sr -> f sr = map ref_unbox sr.
Proof.
  intros f sr (L & N & _) I.
  apply nth_ext with (d := 0) (d' := 0); [rewrite map_length; assumption|].
  intros n H. rewrite (N n H).
  - rewrite <- map_nth with (f := ref_unbox). reflexivity.
  - apply I. apply nth_In. lia.
Qed.

Lemma seq_to_ints_unsat : forall f, ~ (forall sr, seq_to_ints_post f sr).
Proof.
  intros f H. destruct (H [RInt (PyBool true)]) as (L & _ & _ & S & _ & E & _).
  specialize (S (RInt (PyBool true)) eq_refl). rewrite S in E.
  destruct (E 1 (or_introl eq_refl)) as (j & J & X & _).
  destruct j as [|j]; [discriminate|]. cbn in J. lia.
Qed.

Lemma truediv_value_ok : forall a b q, b <> 0 -> int_truediv_post a b (NInt q) -> a = q * b.
Proof.
  intros a b q B (D & N). unfold viper_mod in *. unfold viper_div in D.
  destruct (Z.eq_dec (a mod Z.abs b) 0) as [E|E]; [|specialize (N E); discriminate].
  specialize (D E). injection D as Q. subst q.
  pose proof (Z.div_mod a (Z.abs b) ltac:(lia)) as X.
  destruct (Z.ltb_spec 0 b).
  - rewrite Z.abs_eq in * by lia. lia.
  - rewrite Z.abs_neq in * by lia. lia.
Qed.

Lemma comparisons_ok : forall a b,
  (int_eq a b = true <-> unbox a = unbox b) /\ (int_ge a b = true <-> unbox a >= unbox b) /\
  (int_gt a b = true <-> unbox a > unbox b) /\ (int_le a b = true <-> unbox a <= unbox b) /\
  (int_lt a b = true <-> unbox a < unbox b).
Proof.
  intros a b. unfold int_eq, int_ge, int_gt, int_le, int_lt.
  rewrite Z.eqb_eq, !Z.leb_le, !Z.ltb_lt. lia.
Qed.

Lemma bool_eq_ok : forall x b, bool_eq (PyBool x) b = true <-> unbox (PyBool x) = unbox b.
Proof.
  intros x [z|y]; unfold bool_eq; cbn [is_bool bool_unbox unbox].
  - apply Z.eqb_eq.
  - destruct x, y; cbn; split; intros; try reflexivity; try discriminate.
Qed.

Lemma zero_division_pre a b :
  ((int_floordiv_pre a b = false <-> py_zero_division b) /\
   (int_mod_pre a b = false <-> py_zero_division b))%type.
Proof.
  unfold int_floordiv_pre, int_mod_pre, py_zero_division.
  rewrite negb_false_iff, Z.eqb_eq. tauto.
Qed.

(** Shifts by more than 64: exact as long as nothing is shifted out. *)
Lemma lshift_wide : forall w a b, 0 <= w -> shift_pre w a b = true ->
  Z.abs (unbox a) * 2 ^ unbox b < 2 ^ w ->
  exists z, int_lshift w a b = PyInt z /\ py_lshift (unbox a) (unbox b) z.
Proof.
  intros w a b W P H. destruct (Z_le_gt_dec (unbox b) 64) as [L|L]; [exact (lshift_boxed w a b W P L)|].
  eexists. split; [reflexivity|]. unfold py_lshift.
  destruct b as [n|[]]; cbn [unbox] in *; try lia.
  unfold shift_pre in P. rewrite !andb_true_iff in P. cbn [is_bool orb unbox] in P.
  destruct P as [[_ _] P4]. apply Z.leb_le in P4. unfold INT_MAX in P4.
  pose proof (pow2_pos n ltac:(lia)) as N.
  assert (B : Z.abs (unbox a) < 2 ^ w) by nia.
  unfold prim_lshift. destruct (Z.leb_spec 0 n); [|lia]. destruct (Z.leb_spec n 64); [lia|]. cbn [andb].
  unfold fromBV, shlBV, toBV.
  rewrite (Z.mod_small n) by lia.
  destruct (Z.leb_spec 0 (unbox a)).
  - rewrite (Z.mod_small (unbox a)) by lia. rewrite Z.shiftl_mul_pow2 by lia. apply Z.mod_small. nia.
  - rewrite (Z.mod_small (- unbox a)) by lia. rewrite Z.shiftl_mul_pow2 by lia.
    rewrite Z.mod_small by nia. ring.
Qed.

Lemma rshift_wide : forall w a b, 0 <= w -> shift_pre w a b = true ->
  0 <= unbox a \/ (Z.abs (unbox a) < 2 ^ w /\ (2 ^ unbox b | unbox a)) ->
  exists z, int_rshift w a b = PyInt z /\ py_rshift (unbox a) (unbox b) z.
Proof.
  intros w a b W P [A|[B [q D]]]; [exact (rshift_boxed w a b W P (or_intror A))|].
  destruct (Z_le_gt_dec (unbox b) 64) as [L|L]; [exact (rshift_boxed w a b W P (or_introl L))|].
  destruct (Z_le_gt_dec 0 (unbox a)) as [A|A]; [exact (rshift_boxed w a b W P (or_intror A))|].
  eexists. split; [reflexivity|]. unfold py_rshift.
  destruct b as [n|[]]; cbn [unbox] in *; try lia.
  unfold shift_pre in P. rewrite !andb_true_iff in P. cbn [is_bool orb unbox] in P.
  destruct P as [[_ _] P4]. apply Z.leb_le in P4. unfold INT_MAX in P4.
  pose proof (pow2_pos n ltac:(lia)) as N.
  unfold prim_rshift. destruct (Z.leb_spec 0 n); [|lia]. destruct (Z.leb_spec n 64); [lia|]. cbn [andb].
  destruct (Z.leb_spec 0 (unbox a)); [lia|].
  unfold fromBV, shrBV, toBV. rewrite (Z.mod_small n) by lia.
  rewrite (Z.mod_small (- unbox a)) by lia. rewrite Z.shiftr_div_pow2 by lia.
  rewrite D. replace (- (q * 2 ^ n)) with ((- q) * 2 ^ n) by ring.
  rewrite Z.div_mul by lia. lia.
Qed.

Lemma int_bool_ok : forall v,
  (int_bool v = true <-> unbox v <> 0) /\ (forall x, bool_bool (PyBool x) = x).
Proof.
  intros v. split; [|reflexivity]. unfold int_bool. destruct (Z.eqb_spec (unbox v) 0); cbn; split; congruence.
Qed.
