(** What users expect of levels: they exist. *)
From Coq Require Import List QArith.
From Verif Require Import LevelModel.
Import ListNotations.
Local Open Scope nat_scope.

Definition consistent (known : list fact) : Prop := exists v : term -> Q, Forall (holds v) known.

Definition mentions (k : nat) (f : fact) : Prop :=
  match f with Lt a b | Le a b => a = Level k \/ b = Level k end.

(** The object gets its level in this step, and it is not its own bound: nothing was known
    about its level. *)
Definition unused (k : nat) (st st' : state) : Prop :=
  (forall f, In f (facts st) -> ~ mentions k f) /\ ~ In (Lt (Level k) (Level k)) (facts st').

(** Executions in which every object is initialised before its level is used, and once. *)
Inductive orderly : state -> state -> Prop :=
  | o_nil st : orderly st st
  | o_snoc st1 st2 l st3 :
      orderly st1 st2 -> step st2 l st3 -> (forall k, l = Super k -> unused k st2 st3) -> orderly st1 st3.
