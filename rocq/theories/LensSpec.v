(** What users expect of code lenses and of hovers over names of functions. *)
From Coq Require Import List Arith ZArith Bool.
From Verif Require Import LensModel.
Import ListNotations.

(** The functions of a file with the class they are in, however deep in other statements. *)
Inductive inside (cls : option name) (y : node) : option name -> node -> Prop :=
| I_fun f l cl b : y = Fun f l cl b -> inside cls y cls y
| I_fun_body f l cl b z k x : y = Fun f l cl b -> In z b -> inside cls z k x -> inside cls y k x
| I_cls c b z k x : y = Cls c b -> In z b -> inside (Some c) z k x -> inside cls y k x
| I_other b z k x : y = Other b -> In z b -> inside cls z k x -> inside cls y k x.
Definition defined_in (t : list node) (k : option name) (x : node) : Prop := exists y, In y t /\ inside None y k x.

(** The name that users write for a function. *)
Definition qualified (k : option name) (x : node) : name :=
  match k with Some c => c ++ dot :: fname x | None => fname x end.
Definition identifier (a : name) : Prop := ~ In dot a.

(** Definitions of functions and classes are not below other statements. *)
Fixpoint no_defs (x : node) : bool := match x with Other b => forallb no_defs b | Fun _ _ _ _ | Cls _ _ => false end.
Fixpoint plain (x : node) : bool :=
  match x with Fun _ _ _ _ => true | Cls _ b => forallb plain b | Other b => forallb no_defs b end.
