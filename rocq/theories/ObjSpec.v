(** What users expect of attributes. *)
From Coq Require Import List Bool Arith NArith ZArith QArith.
From Verif Require Import NamesModel ObjModel.
Import ListNotations.
Local Open Scope nat_scope.

(** Superclasses come first, and no class lists a field twice (it is a dictionary). *)
Definition wf_prog (P : program) : Prop :=
  forall c k, nth_error P c = Some k ->
    NoDup (c_fields k) /\ (forall b, c_base k = Some b -> b < c).

Definition lists (P : program) (c : nat) (x : pystring) : Prop :=
  exists k, nth_error P c = Some k /\ In x (c_fields k).

(** Different attributes of the classes of an object have different names in Python. *)
Definition no_clash (P : program) : Prop :=
  forall d a a' x x', subclass P d a -> subclass P d a' -> lists P a x -> lists P a' x' ->
    python_name P (Some a) x = python_name P (Some a') x' ->
    x = x' /\ (python_private x = true -> a = a').

(** Private attributes are accessed in the class that has them. *)
Definition own (P : program) (s : site) : Prop :=
  python_private (s_attr s) = true -> s_cur s = get_field P (s_type s) (s_attr s).

Definition own_label (P : program) (l : label) : Prop :=
  match l with
  | LOther => True
  | LWrite s _ | LRead s _ _ _ => s_union s = true -> own P s
  | LDelete s _ _ => own P s
  end.

(** No AttributeError, and reads give what the verifier believes. *)
Definition as_expected (l : label) : Prop :=
  match l with
  | LOther | LWrite _ _ => True
  | LRead _ _ known found => found = Some known
  | LDelete _ _ there => there = true
  end.

(** The integer value of C(v1, ..., vn) for a subclass C of int that does not define
    __new__: int() is 0, int(v) is v, and more arguments raise TypeError. *)
Definition python_int (args : list Z) : option Z :=
  match args with [] => Some 0%Z | [v] => Some v | _ => None end.
