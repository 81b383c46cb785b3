(** IntEnum in Python (standard library, module enum). *)
From Coq Require Import Bool Arith ZArith List.
From Verif Require Import NamesModel EnumModel.
Import ListNotations.
Local Open Scope Z_scope.

(** Objects. A class has one member object per value; members with equal values are
    aliases of one object. *)
Inductive pyval := PInt (z : Z) | PBool (b : bool) | PMember (c : pystring) (z : Z) | PObject (n : nat).

Definition as_int (v : pyval) : option Z :=
  match v with PInt z => Some z | PBool b => Some (if b then 1 else 0) | PMember _ z => Some z | PObject _ => None end.
(** Members are integers: they are equal to every int, bool or member of the same value. *)
Definition py_eq (a b : pyval) : Prop :=
  match as_int a, as_int b with Some x, Some y => x = y | None, None => a = b | _, _ => False end.

(** The classes of a program, with the names that identify them. *)
Definition program := list (pystring * enum).
Fixpoint class_of (p : program) (c : pystring) : option enum :=
  match p with [] => None | (s, e) :: p' => if pystring_eqb s c then Some e else class_of p' c end.
Definition member (p : program) (c : pystring) (z : Z) : bool :=
  match class_of p c with Some e => existsb (Z.eqb z) (map snd (en_members e)) | None => false end.
Fixpoint lookup (ms : list (pystring * Z)) (m : pystring) : Z :=
  match ms with [] => 0 | (n, z) :: ms' => if pystring_eqb n m then z else lookup ms' m end.
(** C.m *)
Definition py_static (p : program) (c m : pystring) : pyval :=
  match class_of p c with Some e => PMember c (lookup (en_members e) m) | None => PObject 0 end.
(** C(v); [None]: ValueError. *)
Definition py_cons (e : enum) (c : pystring) (v : Z) : option pyval :=
  if existsb (Z.eqb v) (map snd (en_members e)) then Some (PMember c v) else None.

Definition py_typeof (p : program) (v : pyval) : ty :=
  match v with
  | PInt _ => TInt
  | PBool _ => TBool
  | PMember c z => if member p c z then TEnum c else TOther 1
  | PObject _ => TOther 0
  end.
Definition py_int (v : pyval) : Z := match as_int v with Some z => z | None => 0 end.

(** What the functions mean. *)
Definition python (p : program) : interp :=
  {| R := pyval;
     typeof := py_typeof p;
     int_box := PInt; int_unbox := py_int; bool_box := PBool;
     object_eq := py_eq; int_eq := py_eq;
     enum_box := PMember; enum_int := fun _ => py_int;
     static := py_static p |}.

(** Python's comparisons of integers. *)
Definition py_compare (op : cmp) (l r : pyval) : Prop :=
  match op with
  | Is => l = r
  | IsNot => l <> r
  | Eq => py_eq l r
  | NotEq => ~ py_eq l r
  | Lt => py_int l < py_int r
  | LtE => py_int l <= py_int r
  | Gt => py_int l > py_int r
  | GtE => py_int l >= py_int r
  end.
(** [x in l] is true if x is or equals an element. *)
Definition py_in (x : pyval) (l : list pyval) : Prop := exists y, In y l /\ (y = x \/ py_eq y x).

Definition wf (e : enum) : Prop := NoDup (map fst (en_members e)).
(** [v] has the static type [t]. *)
Definition typed (p : program) (t : sty) (v : pyval) : Prop :=
  match t with SInt => int_like (py_typeof p v) = true | SEnum c => py_typeof p v = TEnum c end.
