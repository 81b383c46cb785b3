(** Specification of name tables and of Python's import statements. *)
From Coq Require Import List Arith String.
From Verif Require Import ImpModel.
Import ListNotations.

(** The key that [item] stands for in a table of renamings: the last entry that
    introduces this name counts; without renamings every name stands for itself. *)
Definition stands_for (ns : list (string * option string)) (item key : string) : Prop :=
  (ns = [] /\ key = item) \/
  (exists pre a post, ns = pre ++ (key, a) :: post /\ (a = Some item \/ (a = None /\ key = item)) /\
     forall e, In e post -> snd e <> Some item /\ (snd e = None -> fst e <> item)).

(** [key] is bound to [v] in a dict. *)
Inductive maps {A : Type} : list (string * A) -> string -> A -> Prop :=
| maps_here : forall k v d, maps ((k, v) :: d) k v
| maps_there : forall k k' v v' d, k <> k' -> maps d k v -> maps ((k', v') :: d) k v.

(** The first of the dicts that has the key decides. *)
Definition first_match {A : Type} (ds : list (list (string * A))) (key : string) (v : A) : Prop :=
  exists pre d post, ds = pre ++ d :: post /\ maps d key v /\
    forall d' v', In d' pre -> ~ maps d' key v'.

(** Python's module namespaces: executing the statements of a module one after the other,
    each binding replaces an earlier one. [run body e l e'] executes [l] in namespace
    [e]. An imported module is executed first (each module has the same namespace no
    matter how often it is imported). Import cycles have no derivation here. *)
Definition namespace := string -> option node.
Definition empty : namespace := fun _ => None.
Definition bind (e : namespace) (x : string) (n : node) : namespace :=
  fun y => if String.eqb y x then Some n else e y.
Definition is_public (x : string) : bool := negb (String.prefix "_"%string x).

Fixpoint import_names (e em : namespace) (ns : list (string * option string)) : namespace :=
  match ns with
  | [] => e
  | (y, a) :: ns' =>
      import_names (fun z => if String.eqb z (match a with Some b => b | None => y end) then em y else e z) em ns'
  end.
Definition import_star (e em : namespace) : namespace :=
  fun x => if is_public x then match em x with Some n => Some n | None => e x end else e x.

Inductive run (body : nat -> list item) : namespace -> list item -> namespace -> Prop :=
| run_nil : forall e, run body e [] e
| run_def : forall e k x n l e', run body (bind e x n) l e' -> run body e (IDef k x n :: l) e'
| run_from : forall e m ns l em e', run body empty (body m) em ->
    (forall y a, In (y, a) ns -> em y <> None) ->
    run body (import_names e em ns) l e' -> run body e (IFrom m ns :: l) e'
| run_star : forall e m l em e', run body empty (body m) em ->
    run body (import_star e em) l e' -> run body e (IStar m :: l) e'.

(** In Python, [x] means [n] in module [m] after its execution. *)
Definition python_means (body : nat -> list item) (m : nat) (x : string) (n : option node) : Prop :=
  exists e, run body empty (body m) e /\ e x = n.

(** Everything a name may be taken for in a module: its own definitions ([own]), names
    imported explicitly or by a star, and, although Python does not bind them,
    names that an imported module has imported itself. *)
Inductive may_mean (body : nat -> list item) : bool -> nat -> string -> node -> Prop :=
| mm_def : forall m k x n, In (IDef k x n) (body m) -> may_mean body true m x n
| mm_from : forall own m m' ns x y n, In (IFrom m' ns) (body m) -> stands_for ns x y ->
    may_mean body true m' y n -> may_mean body own m x n
| mm_star : forall own m m' x n, In (IStar m') (body m) -> may_mean body true m' x n -> may_mean body own m x n
| mm_leak : forall own m m' ns x n, In (IFrom m' ns) (body m) -> may_mean body false m' x n ->
    may_mean body own m x n.

(** No import cycles: a rank that decreases along imports. *)
Definition imports (body : nat -> list item) (m m' : nat) : Prop :=
  (exists ns, In (IFrom m' ns) (body m)) \/ In (IStar m') (body m).
Definition acyclic (body : nat -> list item) (rank : nat -> nat) : Prop :=
  forall m m', imports body m m' -> rank m' < rank m.

(** Star imports alone form no cycle. *)
Definition star_acyclic (body : nat -> list item) (rank : nat -> nat) : Prop :=
  forall m m', In (IStar m') (body m) -> rank m' < rank m.

(** Reachable by importing. *)
Inductive reaches (body : nat -> list item) : nat -> nat -> Prop :=
| reaches_refl : forall m, reaches body m m
| reaches_step : forall m m' m'', imports body m m' -> reaches body m' m'' -> reaches body m m''.
