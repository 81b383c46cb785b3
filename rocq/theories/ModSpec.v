(** Python's execution of modules. *)
From Coq Require Import List Arith Bool String.
From Verif Require Import ModModel.
Import ListNotations.

(** The module that a statement imports. *)
Definition imported (P : program) (t : tstmt) : option nat :=
  match t with
  | TStmt _ _ _ _ => None
  | TImport s _ | TFrom s _ | TStar s => Some (modnum P s)
  end.

(** The order of effects alone: an import runs the module unless it was started before.
    [order B target k l ts t l']: with the modules [l] started, the statements [ts] of module
    [k] have the effects [t], and then the modules [l'] are started. [target k c] is the
    module that the import [c] in module [k] imports. *)
Inductive order (B : nat -> list tstmt) (target : nat -> tstmt -> option nat)
  : nat -> list nat -> list tstmt -> list nat -> list nat -> Prop :=
| o_nil : forall k l, order B target k l [] [] l
| o_stmt : forall k l u e ms ds ts t l', order B target k l ts t l' ->
    order B target k l (TStmt u e ms ds :: ts) (e :: t) l'
| o_again : forall k l c m ts t l', target k c = Some m -> In m l ->
    order B target k l ts t l' -> order B target k l (c :: ts) t l'
| o_first : forall k l c m ts t1 l1 t2 l2, target k c = Some m -> ~ In m l ->
    order B target m (m :: l) (B m) t1 l1 -> order B target k l1 ts t2 l2 ->
    order B target k l (c :: ts) (t1 ++ t2) l2.
Definition python_order (P : program) (main : nat) (t : list nat) : Prop :=
  exists l, order (body P) (fun _ => imported P) main [main] (body P main) t l.

(** The effects of the statements of a module, and whether every effect of the
    program has its own number. *)
Definition effects (ts : list tstmt) : list nat :=
  flat_map (fun t => match t with TStmt _ e _ _ => [e] | _ => [] end) ts.
Definition distinct_effects (P : program) : Prop :=
  (forall m, NoDup (effects (body P m))) /\
  (forall m m' e, In e (effects (body P m)) -> In e (effects (body P m')) -> m = m').

(** Namespaces: a name is bound to a value or to a module; the last binding counts. *)
Inductive binding := BVal | BMod (m : nat).
Record pstate := { loaded : list nat; ns : nat -> list (string * binding); ptrace : list nat }.
Fixpoint lookup (x : string) (d : list (string * binding)) : option binding :=
  match d with
  | [] => None
  | (y, b) :: d' => if String.eqb x y then Some b else lookup x d'
  end.
Definition bind_name (st : pstate) (m : nat) (x : string) (b : binding) : pstate :=
  {| loaded := loaded st; ns := fun k => if Nat.eqb k m then (x, b) :: ns st k else ns st k; ptrace := ptrace st |}.
Definition effect (st : pstate) (e : nat) : pstate :=
  {| loaded := loaded st; ns := ns st; ptrace := ptrace st ++ [e] |}.
Definition start (st : pstate) (m : nat) : pstate :=
  {| loaded := m :: loaded st; ns := ns st; ptrace := ptrace st |}.
Definition bind_all (st : pstate) (m : nat) (xs : list string) : pstate :=
  fold_left (fun a x => bind_name a m x BVal) xs st.
(** from m' import *: the public names. *)
Definition public_name (x : string) : bool := negb (String.prefix "_"%string x).
Definition bind_star (st : pstate) (m m' : nat) : pstate :=
  {| loaded := loaded st;
     ns := fun k => if Nat.eqb k m then filter (fun e => public_name (fst e)) (ns st m') ++ ns st k else ns st k;
     ptrace := ptrace st |}.

(** A (dotted) name can be read in module [m]. *)
Fixpoint readable (st : pstate) (m : nat) (g : gname) : Prop :=
  match g with
  | Single x => exists b, lookup x (ns st m) = Some b
  | Combined (Single p) g' => exists m', lookup p (ns st m) = Some (BMod m') /\ readable st m' g'
  | Combined (Combined _ _) _ => False
  end.

(** from m' import xs *)
Inductive pynames : pstate -> nat -> nat -> list (string * option string) -> pstate -> Prop :=
| n_nil : forall st m m', pynames st m m' [] st
| n_name : forall st m m' y a b xs st', lookup y (ns st m') = Some b ->
    pynames (bind_name st m (match a with Some x => x | None => y end) b) m m' xs st' ->
    pynames st m m' ((y, a) :: xs) st'.

(** Execution without NameError, AttributeError and ImportError. *)
Inductive pyrun (P : program) : pstate -> nat -> list tstmt -> pstate -> Prop :=
| p_nil : forall st m, pyrun P st m [] st
| p_stmt : forall st m uses e ms ds ts st', Forall (readable st m) uses ->
    pyrun P (bind_all (effect st e) m ds) m ts st' -> pyrun P st m (TStmt uses e ms ds :: ts) st'
| p_import : forall st m s p ts st1 st', pyload P st (modnum P s) st1 ->
    pyrun P (bind_name st1 m p (BMod (modnum P s))) m ts st' -> pyrun P st m (TImport s p :: ts) st'
| p_from : forall st m s xs ts st1 st2 st', pyload P st (modnum P s) st1 ->
    pynames st1 m (modnum P s) xs st2 -> pyrun P st2 m ts st' -> pyrun P st m (TFrom s xs :: ts) st'
| p_star : forall st m s ts st1 st', pyload P st (modnum P s) st1 ->
    pyrun P (bind_star st1 m (modnum P s)) m ts st' -> pyrun P st m (TStar s :: ts) st'
with pyload (P : program) : pstate -> nat -> pstate -> Prop :=
| l_again : forall st m, In m (loaded st) -> pyload P st m st
| l_first : forall st m st', ~ In m (loaded st) -> pyrun P (start st m) m (body P m) st' -> pyload P st m st'.

Definition py_initial (main : nat) : pstate := {| loaded := [main]; ns := fun _ => []; ptrace := [] |}.

(** Programs where a from-import finds its module: among the modules that the importing
    module imports from, only the right one has this name or a file name that begins with it. *)
Definition exact_imports (P : program) : Prop :=
  forall m c s, In c (body P m) -> (c = TStar s \/ exists xs, c = TFrom s xs) ->
    mod_name P (modnum P s) = s /\
    forall c' s', In c' (body P m) -> (c' = TStar s' \/ exists xs, c' = TFrom s' xs) ->
      mod_name P (modnum P s') = s \/ String.prefix s (mod_file P (modnum P s')) = true ->
      modnum P s' = modnum P s.

(** Programs where every name has one role: it is a method name, always the name of
    the same module, or anything else. Names are public. *)
Inductive role := RMethod | RModule (m : nat) | RPlain.
Fixpoint good_name (r : string -> role) (g : gname) : Prop :=
  match g with
  | Single x => r x = RPlain
  | Combined (Single p) g' => (exists m, r p = RModule m) /\ good_name r g'
  | Combined (Combined _ _) _ => False
  end.
Definition good_stmt (P : program) (r : string -> role) (t : tstmt) : Prop :=
  match t with
  | TStmt uses _ ms ds => Forall (good_name r) uses /\ (forall x, In x ms -> r x = RMethod) /\
      (forall x, In x ds -> r x = RPlain /\ public_name x = true)
  | TImport s p => r p = RModule (modnum P s) /\ public_name p = true
  | TFrom _ xs => forall y a, In (y, a) xs -> r y = RPlain /\
      (let x := match a with Some x => x | None => y end in r x = RPlain /\ public_name x = true)
  | TStar _ => True
  end.
Definition one_role (P : program) (r : string -> role) : Prop := forall m t, In t (body P m) -> good_stmt P r t.

(** No statement reads an attribute of a module. *)
Definition no_attributes (P : program) : Prop :=
  forall m u e ms ds g, In (TStmt u e ms ds) (body P m) -> In g u -> exists x, g = Single x.

(** All modules that can be imported from [main]. *)
Definition closed (P : program) (ms : list nat) : Prop :=
  forall m t m', In m ms -> In t (body P m) -> imported P t = Some m' -> In m' ms.
