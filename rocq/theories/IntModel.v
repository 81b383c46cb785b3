(** Model of the integer operations of Nagini's built-in Viper library.

    Source: /repo/src/nagini_translation/resources/bool.sil and intbv.sil;
    the bounds come from main.py:73-82 (parse_sil_file).

    A Viper function with a body becomes a Gallina function and a separate
    boolean precondition. A Viper function without a body becomes the
    proposition made of its [ensures] clauses, over the arguments and the
    result. Viper's [Int] is [Z]; a boxed Python int or bool is [pyint]. *)
From Coq Require Import List ZArith Bool.
Import ListNotations.
Open Scope Z_scope.

(** Boxed values of Python type int; [bool] is a subtype (bool.sil:298-319). *)
Inductive pyint := PyInt (z : Z) | PyBool (b : bool).

Definition is_bool (v : pyint) : bool := match v with PyBool _ => true | _ => false end.

(** int___unbox__ (303-308) and __prim__bool___box__ (310-314). *)
Definition unbox (v : pyint) : Z :=
  match v with PyInt z => z | PyBool b => if b then 1 else 0 end.

(** bool___unbox__ (316-319), only used when [is_bool] holds. *)
Definition bool_unbox (v : pyint) : bool := match v with PyBool b => b | PyInt z => negb (z =? 0) end.

(** Viper's integer division and modulo. The verifier maps them to SMT-LIB
    [div] and [mod], i.e. Euclidean division: the remainder is never negative. *)
Definition viper_div (a b : Z) : Z := if 0 <? b then a / b else - (a / (- b)).
Definition viper_mod (a b : Z) : Z := a mod (Z.abs b).

(** int___floordiv__ (424-429) and int___mod__ (437-442). *)
Definition int_floordiv_pre (self other : Z) : bool := negb (other =? 0).
Definition int_floordiv (self other : Z) : Z := viper_div self other.
Definition int_mod_pre (self other : Z) : bool := negb (other =? 0).
Definition int_mod (self other : Z) : Z := viper_mod self other.

(** int___truediv__ (431-435). The result is a boxed number: an int or a float
    (whose value the contract leaves open). *)
Inductive pynum := NInt (z : Z) | NFloat.
Definition int_truediv_post (self other : Z) (result : pynum) : Prop :=
  (viper_mod self other = 0 -> result = NInt (viper_div self other)) /\
  (viper_mod self other <> 0 -> result = NFloat).

(** __shift_factor8 (122-135). *)
Definition shift_factor8 (amount : Z) : Z :=
  if amount =? 0 then 1 else
  if amount =? 1 then 2 else
  if amount =? 2 then 4 else
  if amount =? 3 then 8 else
  if amount =? 4 then 16 else
  if amount =? 5 then 32 else
  if amount =? 6 then 64 else
  if amount =? 7 then 128 else
  256.

(** __shift_factor32 (137-145). *)
Definition shift_factor32 (amount : Z) : Z :=
  if amount <=? 8 then shift_factor8 amount else
  if amount <=? 16 then shift_factor8 (amount - 8) * 256 else
  if amount <=? 24 then shift_factor8 (amount - 16) * 256 * 256 else
  shift_factor8 (amount - 24) * 256 * 256 * 256.

(** __shift_factor64 (147-153). *)
Definition shift_factor64 (amount : Z) : Z :=
  if amount <=? 32 then shift_factor32 amount else
  shift_factor32 (amount - 32) * shift_factor32 32.

(** The bounds substituted into intbv.sil (main.py:80-82). *)
Definition INT_MIN (bv_size : Z) : Z := - 2 ^ bv_size.
Definition INT_MAX (bv_size : Z) : Z := 2 ^ bv_size - 1.

(** intbv.sil:14-23: bit vectors of NBITS bits with the SMT-LIB operations.
    A bit vector is the unsigned number below 2^NBITS. *)
Definition toBV (n i : Z) : Z := i mod 2 ^ n.
Definition fromBV (v : Z) : Z := v.
Definition andBV (v w : Z) : Z := Z.land v w.
Definition orBV (v w : Z) : Z := Z.lor v w.
Definition xorBV (v w : Z) : Z := Z.lxor v w.
Definition shlBV (n v w : Z) : Z := Z.shiftl v w mod 2 ^ n.
Definition shrBV (v w : Z) : Z := Z.shiftr v w.

(** __prim__int___lshift__ (155-165). *)
Definition prim_lshift_pre (n self other : Z) : bool :=
  ((other <=? 64) || (INT_MIN n <=? self)) &&
  ((other <=? 64) || (self <=? INT_MAX n)) &&
  (0 <=? other) && (other <=? INT_MAX n).
Definition prim_lshift (n self other : Z) : Z :=
  if (0 <=? other) && (other <=? 64) then self * shift_factor64 other else
  if 0 <=? self then fromBV (shlBV n (toBV n self) (toBV n other)) else
  - fromBV (shlBV n (toBV n (- self)) (toBV n other)).

(** __prim__int___rshift__ (202-213). *)
Definition prim_rshift_pre := prim_lshift_pre.
Definition prim_rshift (n self other : Z) : Z :=
  if (0 <=? other) && (other <=? 64) then viper_div self (shift_factor64 other) else
  if 0 <=? self then fromBV (shrBV (toBV n self) (toBV n other)) else
  - fromBV (shrBV (toBV n (- self)) (toBV n other)).

(** int___lshift__ (177-187) and int___rshift__ (225-235): boxed versions. The
    reflected versions (167-175, 190-200, 215-223, 238-248) have the same
    preconditions and call these with the arguments in the same order. *)
Definition shift_pre (n : Z) (self other : pyint) : bool :=
  (is_bool self || (unbox other <=? 64) || (INT_MIN n <=? unbox self)) &&
  (is_bool self || (unbox other <=? 64) || (unbox self <=? INT_MAX n)) &&
  (is_bool other || (0 <=? unbox other)) &&
  (is_bool other || (unbox other <=? INT_MAX n)).
Definition int_lshift (n : Z) (self other : pyint) : pyint :=
  PyInt (prim_lshift n (unbox self) (unbox other)).
Definition int_rshift (n : Z) (self other : pyint) : pyint :=
  PyInt (prim_rshift n (unbox self) (unbox other)).

(** The common preconditions of int___and__, int___or__, int___xor__ (41-108) and
    their reflected versions. *)
Definition bitop_pre (n : Z) (self other : pyint) : bool :=
  (is_bool self || (INT_MIN n <=? unbox self)) &&
  (is_bool self || (unbox self <=? INT_MAX n)) &&
  (is_bool other || (INT_MIN n <=? unbox other)) &&
  (is_bool other || (unbox other <=? INT_MAX n)).

(** int___and__ (41-54), int___or__ (68-81), int___xor__ (95-108). *)
Definition int_and (n : Z) (self other : pyint) : pyint :=
  if is_bool self && is_bool other then PyBool (bool_unbox self && bool_unbox other)
  else PyInt (fromBV (andBV (toBV n (unbox self)) (toBV n (unbox other)))).
Definition int_or (n : Z) (self other : pyint) : pyint :=
  if is_bool self && is_bool other then PyBool (bool_unbox self || bool_unbox other)
  else PyInt (fromBV (orBV (toBV n (unbox self)) (toBV n (unbox other)))).
Definition int_xor (n : Z) (self other : pyint) : pyint :=
  if is_bool self && is_bool other
  then PyBool (negb (Bool.eqb (bool_unbox self) (bool_unbox other)))
  else PyInt (fromBV (xorBV (toBV n (unbox self)) (toBV n (unbox other)))).

(** int___bool__ (250-254), bool___bool__ (23-27). *)
Definition int_bool (self : pyint) : bool := negb (unbox self =? 0).
Definition bool_bool (self : pyint) : bool := bool_unbox self.

(** __int_bit_length8 (256-269). *)
Definition bit_length8 (val : Z) : Z :=
  if val <? 1 then 0 else
  if val <? 2 then 1 else
  if val <? 4 then 2 else
  if val <? 8 then 3 else
  if val <? 16 then 4 else
  if val <? 32 then 5 else
  if val <? 64 then 6 else
  if val <? 128 then 7 else
  8.

(** __int_bit_length32 (271-279). *)
Definition bit_length32 (val : Z) : Z :=
  if val <? shift_factor32 8 then bit_length8 val else
  if val <? shift_factor32 16 then bit_length8 (viper_div val (shift_factor32 8)) + 8 else
  if val <? shift_factor32 24 then bit_length8 (viper_div val (shift_factor32 16)) + 16 else
  bit_length8 (viper_div val (shift_factor32 24)) + 24.

(** __int_bit_length64 (281-287). *)
Definition bit_length64 (val : Z) : Z :=
  if val <? shift_factor32 32 then bit_length32 val else
  bit_length32 (viper_div val (shift_factor32 32)) + 32.

(** abs (516-518). *)
Definition sil_abs (a : Z) : Z := if 0 <=? a then a else - a.

(** int_bit_length (289-296). *)
Definition int_bit_length_pre (self : pyint) : bool :=
  (is_bool self || (unbox self <? shift_factor64 64)) &&
  (is_bool self || (- shift_factor64 64 <? unbox self)).
Definition int_bit_length (self : pyint) : Z := bit_length64 (sil_abs (unbox self)).

(** int___pow__ (397-405): recursion on a decreasing exponent; [fuel] is the
    exponent itself and never runs out when the precondition holds. *)
Definition int_pow_pre (self other : Z) : bool := 0 <=? other.
Fixpoint pow_fuel (fuel : nat) (self other : Z) : Z :=
  if other =? 0 then 1 else
  if other =? 1 then self else
  if other =? 2 then self * self else
  match fuel with
  | O => 0
  | S f => self * pow_fuel f self (other - 1)
  end.
Definition int_pow (self other : Z) : Z := pow_fuel (Z.to_nat other) self other.

(** The axioms of the domain function ___pow (413-422) and the contract of
    int___pow_unrolled__ (407-411), used for literal exponents. *)
Definition pow_axioms (pw : Z -> Z -> Z) : Prop :=
  (forall i1, pw i1 0 = 1) /\
  (forall i1 i2, 0 < i2 -> pw i1 i2 = i1 * pw i1 (i2 - 1)).
Definition pow_unrolled_post (pw : Z -> Z -> Z) (self other result : Z) : Prop :=
  result = int_pow self other /\ result = pw self other.

(** int___pos__, int___neg__, int___invert__, int___int__ (444-462). *)
Definition int_pos (self : pyint) : pyint := self.
Definition int_neg (self : pyint) : pyint := PyInt (- unbox self).
Definition int_invert (self : pyint) : pyint := PyInt (- (1 + unbox self)).
Definition int_int (self : pyint) : pyint := self.

(** int___eq__ on two ints (321-327) and the comparisons (339-377) on two ints. *)
Definition int_eq (self other : pyint) : bool := unbox self =? unbox other.
Definition int_ge (self other : pyint) : bool := unbox other <=? unbox self.
Definition int_gt (self other : pyint) : bool := unbox other <? unbox self.
Definition int_le (self other : pyint) : bool := unbox self <=? unbox other.
Definition int_lt (self other : pyint) : bool := unbox self <? unbox other.

(** bool___eq__ on an int or a bool (330-336). *)
Definition bool_eq (self other : pyint) : bool :=
  if is_bool other then Bool.eqb (bool_unbox self) (bool_unbox other)
  else unbox self =? unbox other.

(** max and min (500-514): two ints, or one non-empty list of ints. The list
    clause is list___contains__(a, __prim__int___box__(result)), which is identity
    of references (list.sil:19-23): the box of an int is an exact int. *)
Definition max2 (a b : pyint) : Z := if unbox b <? unbox a then unbox a else unbox b.
Definition min2 (a b : pyint) : Z := if unbox b <? unbox a then unbox b else unbox a.
Definition maxmin_list_pre (a : list pyint) : bool := (0 <? Z.of_nat (length a)).
Definition maxmin_list_post (a : list pyint) (result : Z) : Prop :=
  In (PyInt result) a.

(** sorted (524-537) on a list of ints. The two last clauses bound every
    element by the first and last element of the result. [getz] reads an element
    as a number; [occ] counts occurrences (the multiset of clause 531). *)
Definition getz (l : list pyint) (i : Z) : Z := unbox (nth (Z.to_nat i) l (PyInt 0)).
Definition pyint_eq_dec : forall a b : pyint, {a = b} + {a <> b}.
Proof. decide equality; [apply Z.eq_dec | apply bool_dec]. Defined.
Definition occ (x : pyint) (l : list pyint) : nat := count_occ pyint_eq_dec l x.
Definition lenZ {A} (l : list A) : Z := Z.of_nat (length l).
Fixpoint sumz (l : list Z) : Z := match l with [] => 0 | x :: l' => x + sumz l' end.
Definition sorted_post (r rs : list pyint) : Prop :=
  lenZ rs = lenZ r /\
  (forall x, occ x r = occ x rs) /\
  sumz (map unbox r) = sumz (map unbox rs) /\
  (forall i1 i2, 0 <= i1 -> i1 < i2 -> i2 < lenZ rs -> getz rs i1 <= getz rs i2) /\
  (lenZ r = 1 -> rs = r) /\
  (1 < lenZ r -> forall i, 0 <= i < lenZ r -> getz rs 0 <= getz r i) /\
  (1 < lenZ r -> forall i, 0 <= i < lenZ r -> getz r i <= getz rs (lenZ r - 1)).

(** sum (542-545): the axioms of __sum (558-576) and the contract of
    __seq_ref_to_seq_int (547-555), for sequences of arbitrary references. *)
Inductive ref := RInt (v : pyint) | ROther (id : nat).
Definition ref_is_int (r : ref) : bool := match r with RInt _ => true | _ => false end.
Definition ref_is_exact_int (r : ref) : bool := match r with RInt (PyInt _) => true | _ => false end.
Definition ref_unbox (r : ref) : Z := match r with RInt v => unbox v | _ => 0 end.

Definition sum_axioms (f : list Z -> Z) : Prop :=
  f [] = 0 /\
  (forall t, f [t] = t) /\
  (forall a b, f (a ++ b) = f a + f b) /\
  (forall a b, (forall x, count_occ Z.eq_dec a x = count_occ Z.eq_dec b x) -> f a = f b).

(** Clauses 548-554 for one argument [sr]. *)
Definition seq_to_ints_post (f : list ref -> list Z) (sr : list ref) : Prop :=
  length (f sr) = length sr /\
  (forall i, (i < length (f sr))%nat -> ref_is_int (nth i sr (ROther 0)) = true ->
             nth i (f sr) 0 = ref_unbox (nth i sr (ROther 0))) /\
  (sr = [] -> f sr = []) /\
  (forall r, ref_is_int r = true -> f [r] = [ref_unbox r]) /\
  (forall a b, f (a ++ b) = f a ++ f b) /\
  (forall i, In i (f sr) -> exists j, (j < length sr)%nat /\
       ref_is_exact_int (nth j sr (ROther 0)) = true /\ i = ref_unbox (nth j sr (ROther 0)) /\
       nth j sr (ROther 0) = RInt (PyInt i)) /\
  (forall i, In i (f sr) -> exists j, (j < length sr)%nat /\
       ref_is_int (nth j sr (ROther 0)) = true /\ i = ref_unbox (nth j sr (ROther 0))).
