(* Specification for C35: numbers with infinities and nan, and the rules for comparing and
   combining them, written without looking at the contracts. *)

From Coq Require Import ZArith Bool QArith Qcanon Floats.SpecFloat.
From Verif Require Import FloatModel.
Open Scope Z_scope.

(* The number a Python object stands for. *)
Definition num_of (v : pynum xval) : xval :=
  match v with
  | VFloat x => x
  | VInt z => XFin (Q2Qc (inject_Z z))
  | VBool true => XFin (Q2Qc 1)
  | VBool false => XFin (Q2Qc 0)
  end.

(* IEEE ordering: nan is not comparable, the infinities are the ends. *)
Definition x_lt (a b : xval) : Prop :=
  match a, b with
  | XNan, _ | _, XNan => False
  | XInf true, XInf true => False
  | XInf true, _ => True
  | _, XInf true => False
  | XInf false, _ => False
  | XFin _, XInf false => True
  | XFin p, XFin q => (p < q)%Qc
  end.
Definition x_eq (a b : xval) : Prop := a <> XNan /\ a = b.
Definition x_le (a b : xval) : Prop := x_lt a b \/ x_eq a b.

(* Sign of a number: Lt for negative, Eq for zero, Gt for positive. *)
Definition sign (q : Qc) : comparison := (q ?= Q2Qc 0)%Qc.
Definition signed_inf (negative : bool) (q : Qc) : xval :=
  match sign q with
  | Eq => XNan
  | Gt => XInf negative
  | Lt => XInf (negb negative)
  end.

Definition x_neg (a : xval) : xval :=
  match a with XNan => XNan | XInf n => XInf (negb n) | XFin q => XFin (- q)%Qc end.
Definition x_add (a b : xval) : xval :=
  match a, b with
  | XNan, _ | _, XNan => XNan
  | XInf n, XInf n' => if Bool.eqb n n' then XInf n else XNan
  | XInf n, XFin _ | XFin _, XInf n => XInf n
  | XFin p, XFin q => XFin (p + q)%Qc
  end.
Definition x_sub (a b : xval) : xval := x_add a (x_neg b).
Definition x_mul (a b : xval) : xval :=
  match a, b with
  | XNan, _ | _, XNan => XNan
  | XInf n, XInf n' => XInf (xorb n n')
  | XInf n, XFin q | XFin q, XInf n => signed_inf n q
  | XFin p, XFin q => XFin (p * q)%Qc
  end.
(* The divisor is not zero. *)
Definition x_div (a b : xval) : xval :=
  match a, b with
  | XNan, _ | _, XNan => XNan
  | XInf _, XInf _ => XNan
  | XInf n, XFin q => signed_inf n q
  | XFin _, XInf _ => XFin (Q2Qc 0)
  | XFin p, XFin q => XFin (p / q)%Qc
  end.
(* Python's bool(x). *)
Definition x_true (a : xval) : Prop := a <> XFin (Q2Qc 0).
(* Python's int(x) cuts off towards zero. *)
Definition truncate (q : Qc) : Z := Z.quot (Qnum q) (Zpos (Qden q)).

(* The pairs for which the contracts of a >= b and a > b contradict themselves. *)
Definition clash (a b : xval) : Prop :=
  (a = XInf false /\ b = XNan) \/ (a = XNan /\ b = XInf true).

(* The number a binary float stands for. *)
Definition number (f : spec_float) : xval :=
  match f with
  | S754_nan => XNan
  | S754_infinity s => XInf s
  | S754_zero _ => XFin (Q2Qc 0)
  | S754_finite s m e =>
      XFin (Q2Qc ((if s then Zneg m else Zpos m) # 1) * Q2Qc (Qpower 2 e))%Qc
  end.

(* Floats with 24 digits, and Python's floats with 53 digits. *)
Definition single (f : spec_float) : Prop := valid_binary 24 128 f = true.
Definition double (f : spec_float) : Prop := valid_binary 53 1024 f = true.
Definition single_object (v : pynum f32) : Prop := match v with VFloat f => single f | _ => True end.

(* An int that a single represents exactly. *)
Definition small (z : Z) : Prop := Z.abs z <= 2 ^ 24.
Definition small_object (v : pynum f32) : Prop :=
  match v with VInt z => small z | _ => True end.
Definition number32 (v : pynum f32) : xval :=
  match v with VFloat f => number f | _ => XFin (Q2Qc (inject_Z (int_of v))) end.
