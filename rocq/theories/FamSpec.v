(** What a predicate means for the objects of a class. *)
From Coq Require Import Bool Arith List NArith.
From Verif Require Import ClsModel ClsSpec UnitModel UnitSpec FamModel.
Import ListNotations.
Local Open Scope nat_scope.

Definition has_pred (P : prog) (x : nat) (c : cid) : Prop := In x (p_preds P c).

(** [r] is the highest class above [c] that defines the predicate. *)
Definition topmost (P : prog) (x : nat) (c r : cid) : Prop :=
  inherits (p_tb P) c r /\ has_pred P x r /\ forall e, inherits (p_tb P) c e -> has_pred P x e -> inherits (p_tb P) e r.

(** No class overrides a predicate that its direct superclass merely inherits. *)
Definition no_gap (P : prog) (x : nat) : Prop :=
  forall c p e, some_class P c -> has_pred P x c -> superclass (p_tb P) c = Some p -> inherits (p_tb P) p e -> has_pred P x e -> has_pred P x p.

(** All predicates of the family are abstract, or none is. *)
Definition concrete (P : prog) (x : nat) : Prop :=
  forall c, has_pred P x c -> m_declared (p_info P (OClass c) x) = false.

(** A class occurs in one module only. *)
Definition classes_once (P : prog) : Prop := NoDup (flat_map md_classes (p_modules P)).
