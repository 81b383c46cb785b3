(** What users expect of global variables, and the programs for which it is proved. *)
From Coq Require Import List Bool Arith ZArith.
From Verif Require Import GlobModel.
Import ListNotations.
Local Open Scope nat_scope.

(** No execution of the program ends with a NameError, an ImportError or a failing
    assertion. *)
Definition runs_fine (P : prog) : Prop :=
  forall n s, run (funs P) n (mods P) (fun _ => None) <> Some (Fail s).

(** Assigned references, in a statement and in the program (with the module). *)
Fixpoint targets (p : stmt) : list ref :=
  match p with
  | SAssign r _ => [r]
  | SSeq a b | SIf _ a b => targets a ++ targets b
  | SWhile _ _ b => targets b
  | SFor x _ _ b => RName x :: targets b
  | _ => []
  end.
Definition codes (P : prog) : list (nat * stmt) :=
  mods P ++ map (fun d => (f_mod (snd d), f_body (snd d))) (funs P).
Definition all_targets (P : prog) : list (nat * ref) :=
  flat_map (fun d => map (pair (fst d)) (targets (snd d))) (codes P).

(** m.x may be assigned only if a module or function assigns the variable by its name. *)
Definition known_attributes (P : prog) : Prop :=
  forall m0 m x, In (m0, RAttr m x) (all_targets P) ->
    exists m1 y, In (m1, RName y) (all_targets P) /\ pykey m1 (RName y) = (m, x).

(** Imported names: each is imported from one module, which does not import it itself, it
    is not assigned in the importing module, and its variable is final. *)
Definition imports (P : prog) (m0 m x : nat) : Prop := exists p, In (m0, p) (mods P) /\ In (m, x) (froms p).
Definition imports_final (P : prog) : Prop :=
  forall m0 m x, imports P m0 m x ->
    (forall m', imports P m0 m' x -> m' = m) /\
    (forall m', ~ imports P m m' x) /\
    final P (m, x) = true /\
    forall m1 r, In (m1, r) (all_targets P) -> pykey m1 r <> (m0, x).

(** Targets of assignments and for loops inside of loops. *)
Fixpoint loop_targets (p : stmt) : list ref :=
  match p with
  | SSeq a b | SIf _ a b => loop_targets a ++ loop_targets b
  | SWhile _ _ b => targets b
  | SFor x _ _ b => RName x :: targets b
  | _ => []
  end.
Definition no_final_in_loops (P : prog) : Prop :=
  forall m0 p r, In (m0, p) (codes P) -> In r (loop_targets p) -> final P (resolve P m0 r) = false.

(** The names that are read, imported or tested: no module assigns m.x if it has such a
    name x itself. *)
Definition read_keys (P : prog) : list key :=
  flat_map (fun d => map (pykey (fst d)) (stmt_refs (snd d)) ++ froms (snd d)) (mods P) ++
  flat_map (fun d => deps (snd d)) (funs P).
Definition no_clashes (P : prog) : Prop :=
  forall m0 p m x, In (m0, p) (mods P) -> In (RAttr m x) (targets p) -> ~ In (m0, x) (read_keys P).

(** The values of final variables do not depend on each other in a circle. *)
Definition not_circular (P : prog) : Prop :=
  exists rank : key -> nat, forall v m0 e r,
    final P v = true -> value P v = Some (m0, e) -> heap_dependent P m0 e = false -> In r (refs e) -> rank (resolve P m0 r) < rank v.

(** Functions do not call functions or import. *)
Fixpoint simple (p : stmt) : Prop :=
  match p with
  | SFrom _ _ | SCall _ => False
  | SSeq a b | SIf _ a b => simple a /\ simple b
  | SWhile _ _ b | SFor _ _ _ b => simple b
  | _ => True
  end.
Definition simple_functions (P : prog) : Prop := forall f d, In (f, d) (funs P) -> simple (f_body d).

Definition well_behaved (P : prog) : Prop :=
  known_attributes P /\ imports_final P /\ no_final_in_loops P /\ no_clashes P /\ not_circular P /\ simple_functions P.
