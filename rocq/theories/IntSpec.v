(** What Python computes, stated without reference to the Viper encoding. *)
From Coq Require Import List ZArith Bool.
From Coq Require Import Sorting.Permutation Sorting.Sorted.
From Verif Require Import IntModel.
Import ListNotations.
Open Scope Z_scope.

(** Language reference 6.7: [a == (a//b)*b + (a%b)], and the remainder has the
    sign of the divisor (or is zero) and a smaller magnitude. *)
Definition py_divmod (a b q r : Z) : Prop :=
  a = q * b + r /\ (0 < b -> 0 <= r < b) /\ (b < 0 -> b < r <= 0).

(** a // b and a % b raise ZeroDivisionError. *)
Definition py_zero_division (b : Z) : Prop := b = 0.

(** Shifts: multiplication by 2^n, floor division by 2^n. *)
Definition py_lshift (a n r : Z) : Prop := r = a * 2 ^ n.
Definition py_rshift (a n r : Z) : Prop := r * 2 ^ n <= a < (r + 1) * 2 ^ n.

(** Bitwise operators act on the infinite two's complement representation. *)
Definition py_bitop (f : bool -> bool -> bool) (a b r : Z) : Prop :=
  forall i, 0 <= i -> Z.testbit r i = f (Z.testbit a i) (Z.testbit b i).

(** The result of a bitwise operator on boxed values: bool on two bools. *)
Definition py_bitop_val (f : bool -> bool -> bool) (a b r : pyint) : Prop :=
  match a, b with
  | PyBool x, PyBool y => r = PyBool (f x y)
  | _, _ => exists z, r = PyInt z /\ py_bitop f (unbox a) (unbox b) z
  end.

Definition py_pow (x n : Z) : Z := Nat.iter (Z.to_nat n) (Z.mul x) 1.

(** int.bit_length: 0 for 0, otherwise the k with 2^(k-1) <= |x| < 2^k. *)
Definition py_bit_length (x k : Z) : Prop :=
  (x = 0 -> k = 0) /\ (x <> 0 -> 0 < k /\ 2 ^ (k - 1) <= Z.abs x < 2 ^ k).

(** ~x flips every bit. *)
Definition py_invert (x r : Z) : Prop :=
  forall i, 0 <= i -> Z.testbit r i = negb (Z.testbit x i).

Definition py_max (l : list Z) (m : Z) : Prop := In m l /\ forall x, In x l -> x <= m.
Definition py_min (l : list Z) (m : Z) : Prop := In m l /\ forall x, In x l -> m <= x.

(** sorted: an ascending permutation. *)
Definition py_sorted (l r : list pyint) : Prop :=
  Permutation l r /\ StronglySorted (fun a b => unbox a <= unbox b) r.

(** True division of ints always yields a float. *)
Definition py_truediv (a b : Z) (r : pynum) : Prop := r = NFloat.

Definition py_sum (l : list Z) : Z := fold_left Z.add l 0.
