(** What users mean by a list of names to verify. *)
From Coq Require Import List Arith Bool.
From Verif Require Import LensModel SelModel.
Import ListNotations.

(** The names of a list, with a separator. *)
Fixpoint join (sep : name) (ns : list name) : name :=
  match ns with [] => [] | [a] => a | a :: ns' => a ++ sep ++ join sep ns' end.
(** The function [f] (of a class or at the top level) is one that the list names. *)
Definition named (ns : list name) (k : option name) (f : name) : Prop :=
  In f ns \/ exists c, k = Some c /\ (In c ns \/ In (c ++ dot :: f) ns).
(** The character "," and the end of a line. *)
Definition comma_char : nat := 44.
Definition line_end : nat := 10.
(** What is printed for the user of a call, with the line ends. *)
Definition output (c : call) : name := concat (map (fun p : bool * name => line_end :: snd p) (parts c)).
