(** The global names that executing a use of a declaration may read. *)
From Coq Require Import List Arith Bool.
From Verif Require Import ModModel DepModel.
Import ListNotations.

(** What is executed by a call of [t]. *)
Definition callee (P : decls) (t : nat) : option nat :=
  match kind_of P t with
  | DFun | DMethod | DStatic => Some t
  | DClass i => i
  | DVar => None
  end.

(** C.m without m *)
Fixpoint without_last (g : gname) : gname :=
  match g with
  | Combined p (Single _) => p
  | Combined p g' => Combined p (without_last g')
  | Single x => Single x
  end.

(** [needs P D m s (m', g)]: with the names [D] defined, executing [s] in module [m] may
    read the name [g] in module [m']. Objects only have classes that are defined. *)
Inductive needs (P : decls) (D : nat -> gname -> bool) : nat -> site -> nat * gname -> Prop :=
| needs_read : forall m i r t, needs P D m (Read i r t) (m, r)
| needs_call : forall m i r t, kind_of P t <> DStatic -> needs P D m (Call i r t) (m, r)
| needs_static : forall m i r t, kind_of P t = DStatic -> needs P D m (Call i r t) (m, without_last r)
| needs_body : forall m i r t b s k, callee P t = Some b -> In s (sites P b) ->
    needs P D (module_of P b) s k -> needs P D m (Call i r t) k
| needs_dispatch : forall m i r md sub b s k, In sub (subclasses P (class_of P md)) ->
    D (module_of P sub) (name_of P sub) = true -> method_in P sub md = Some b -> In s (sites P b) ->
    needs P D (module_of P b) s k -> needs P D m (Invoke i r md) k.

(** Everything a use needs is defined. *)
Definition all_defined (P : decls) (D : nat -> gname -> bool) (m : nat) (s : site) : Prop :=
  forall m' g, needs P D m s (m', g) -> D m' g = true.

(** Methods are called on objects, everything else by name. *)
Definition site_ok (P : decls) (s : site) : Prop :=
  match s with
  | Read i r t => kind_of P t = DVar \/ exists c, kind_of P t = DClass c
  | Call i r t => kind_of P t <> DMethod /\ kind_of P t <> DVar
  | Invoke i r md => forall sub b, method_in P sub md = Some b -> kind_of P b = DMethod
  end.
Definition well_formed (P : decls) : Prop := forall d s, In s (sites P d) -> site_ok P s.

(** No function body calls a static method or a constructor. *)
Definition plain (P : decls) : Prop := forall d i r t, In (Call i r t) (sites P d) -> kind_of P t = DFun.

(** The declarations whose code a use may execute. *)
Definition executes (P : decls) (s : site) (b : nat) : Prop :=
  match s with
  | Read _ _ _ => False
  | Call _ _ t => callee P t = Some b
  | Invoke _ _ md => exists sub, In sub (subclasses P (class_of P md)) /\ method_in P sub md = Some b
  end.
Definition closed_under (P : decls) (ds : list nat) : Prop :=
  forall d s b, In d ds -> In s (sites P d) -> executes P s b -> In b ds.

(** No recursion below method calls: [below] contains all methods that are called on
    objects and everything that they may execute, and [rank] decreases along these. *)
Definition no_method_recursion (P : decls) (below : nat -> Prop) (rank : nat -> nat) : Prop :=
  (forall d i r md b, In (Invoke i r md) (sites P d) -> executes P (Invoke i r md) b -> below b) /\
  (forall d s b, below d -> In s (sites P d) -> executes P s b -> below b /\ rank b < rank d).
