(** What users expect of locks. *)
From Coq Require Import List Bool Arith ZArith QArith.
From Verif Require Import LockModel.
Import ListNotations.
Local Open Scope nat_scope.

(** Reads give what the verifier believes, what it assumes is true, and only locks that are
    taken are released. *)
Definition as_expected (l : label) : Prop :=
  match l with
  | LOther | LWrite _ _ => True
  | LRead _ _ known found => known = found
  | LAssume _ _ true_ => true_ = true
  | LRelease _ _ taken => taken = true
  end.

Section Spec.
  Variable sub : nat -> nat -> bool.
  Variable F : family.

  Definition can (st : state) (l : label) : Prop := exists st', step sub F st l st'.

  (** Two activations access a location at the same time, one of them writes. *)
  Definition race (st : state) : Prop :=
    exists i j l, i <> j /\ can st (LWrite i l) /\
      (can st (LWrite j l) \/ exists known found, can st (LRead j l known found)).

  (** Fields that belong to the invariant of lock k (with some permission, with all of it). *)
  Definition protects (st : state) (k : nat) (q : Q) (l : loc) : Prop :=
    (q == amounts (k_obj (lock_of st k)) (s_heap st) (body sub F (k_class (lock_of st k))) l)%Q.

  Definition free (st : state) (k : nat) : Prop :=
    k < length (s_locks st) /\ k_ready (lock_of st k) = true /\ k_taken (lock_of st k) = false.
End Spec.
