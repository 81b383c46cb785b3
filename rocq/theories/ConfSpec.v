(** What users expect of changing options. *)
From Coq Require Import List Arith Bool.
From Verif Require Import ConfModel.
Import ListNotations.

(** The value of an option after a request for changes. *)
Definition wanted (d : dict) (old : key -> value) (k : key) : value :=
  match k, d k with
  | Jar, _ => old k
  | (Server | Dbc), Some (Some v) => Some (if v =? 0 then 0 else 1)
  | _, Some (Some v) => Some v
  | _, _ => old k
  end.
Section Load.
  Context {R : Type} (load : value -> value -> value -> option R).
  (** The resources are those for the current options. *)
  Definition in_step (s : state R) : Prop := load (conf s Bv) (conf s Sif) (conf s Float) = Some (res s).
  (** States after sequences of requests without exceptions. *)
  Inductive after : list dict -> state R -> state R -> Prop :=
  | A_nil s : after [] s s
  | A_cons d ds s r s1 s2 : configure load d s = (s1, r, false) -> after ds s1 s2 -> after (d :: ds) s s2.
End Load.
