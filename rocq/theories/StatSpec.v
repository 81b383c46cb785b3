(** What users rely on for static fields, and the conditions of the theorem. *)
From Coq Require Import List Bool Arith ZArith.
Import ListNotations.
From Verif Require Import StatModel.
Local Open Scope nat_scope.

(** The program runs to its end: no NameError, no AttributeError, no failing assertion. *)
Definition runs_fine (P : prog) : Prop := exists s, run P empty = Some s.

(** Names are bound once: classes, their fields, global variables, objects. *)
Definition once (P : prog) : Prop :=
  NoDup (flat_map (fun t => match t with SClass c _ _ => [c] | _ => [] end) P) /\
  NoDup (flat_map (fun t => match t with SGlob x _ => [x] | _ => [] end) P) /\
  NoDup (flat_map (fun t => match t with SNew o _ => [o] | _ => [] end) P) /\
  forall c sup fs, In (SClass c sup fs) P -> NoDup (map fst fs).

(** Static fields are only assigned in class bodies. *)
Definition no_updates (P : prog) : Prop := forall c x e, ~ In (SSet c x e) P.
(** C.x is assigned outside of the class body. *)
Definition updated (P : prog) (c x : nat) : Prop := exists e, In (SSet c x e) P.

(** The names in an expression. *)
Fixpoint names_in (e : expr) : list nat :=
  match e with EName x => [x] | EAdd a b | EEq a b => names_in a ++ names_in b | _ => [] end.
Definition is_global (P : prog) (x : nat) : Prop := exists e, In (SGlob x e) P.
Definition is_static (P : prog) (x : nat) : Prop := exists c sup fs, In (SClass c sup fs) P /\ In x (map fst fs).
(** No name is both that of a static field and of a global variable. *)
Definition separate (P : prog) : Prop := forall x, is_global P x -> is_static P x -> False.
(** Names outside of class bodies are those of global variables; in a class body also
    those of fields of the class that are assigned before. *)
Definition scoped (P : prog) : Prop :=
  (forall t e x, In t P ->
     (t = SAssert e \/ (exists y, t = SGlob y e) \/ (exists o y, t = SInst o y e) \/ (exists c y, t = SSet c y e)) ->
     In x (names_in e) -> is_global P x) /\
  (forall c sup fs1 x e fs2 y, In (SClass c sup (fs1 ++ (x, e) :: fs2)) P -> In y (names_in e) ->
     In y (map fst fs1) \/ (~ In y (map fst (fs1 ++ (x, e) :: fs2)) /\ is_global P y)).

(** The values of fields and variables do not depend on each other in a cycle: there is
    a rank (of variables, and of fields read through a class) that decreases from a
    variable or field to what its value mentions. *)
Inductive mentions (P : prog) : option nat -> expr -> option nat -> nat -> Prop :=
| m_field c sup fs x : In (SClass c sup fs) P -> In x (map fst fs) -> mentions P (Some c) (EName x) (Some c) x
| m_name cs x : mentions P cs (EName x) None x
| m_stat cs c x : mentions P cs (EStat c x) (Some c) x
| m_inst cs o c x : In (SNew o c) P -> mentions P cs (EInst o x) (Some c) x
| m_addl cs a b d y : mentions P cs a d y -> mentions P cs (EAdd a b) d y
| m_addr cs a b d y : mentions P cs b d y -> mentions P cs (EAdd a b) d y
| m_eql cs a b d y : mentions P cs a d y -> mentions P cs (EEq a b) d y
| m_eqr cs a b d y : mentions P cs b d y -> mentions P cs (EEq a b) d y.
Definition not_circular (P : prog) : Prop :=
  exists rank : option nat -> nat -> nat,
    (forall c d fs x, In (SClass c (Some d) fs) P -> ~ In x (map fst fs) -> rank (Some d) x <= rank (Some c) x) /\
    (forall x e d y, In (SGlob x e) P -> mentions P None e d y -> rank d y < rank None x) /\
    (forall c sup fs x e d y, In (SClass c sup fs) P -> In (x, e) fs -> mentions P (Some c) e d y ->
       (d = None -> ~ In y (map fst fs)) -> rank d y < rank (Some c) x).

(** The fields that are assigned outside of class bodies: these assign them in the class
    that declares them, with different integer literals; values of global variables do not
    mention fields of these names, and they are not assigned through objects. *)
Definition updates_apart (P : prog) : Prop :=
  (forall c x, updated P c x -> exists sup fs z, In (SClass c sup fs) P /\ In (x, EInt z) fs) /\
  (forall c x c' x' sup fs sup' fs' z, updated P c x -> updated P c' x' ->
     In (SClass c sup fs) P -> In (x, EInt z) fs -> In (SClass c' sup' fs') P -> In (x', EInt z) fs' -> c = c' /\ x = x') /\
  (forall y e d x c, In (SGlob y e) P -> mentions P None e (Some d) x -> ~ updated P c x) /\
  (forall o x e c, In (SInst o x e) P -> ~ updated P c x).

Definition well_behaved (P : prog) : Prop :=
  once P /\ updates_apart P /\ separate P /\ scoped P /\ not_circular P.
