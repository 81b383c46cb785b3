(** What inheritance means, independently of the translator's functions. *)
From Coq Require Import Bool Arith List Permutation.
From Verif Require Import ClsModel.
Import ListNotations.

(** [c] is [d] or a direct or indirect subclass of [d]. *)
Inductive inherits (tb : table) : cid -> cid -> Prop :=
| inh_refl c : inherits tb c c
| inh_step c p d : superclass tb c = Some p -> inherits tb p d -> inherits tb c d.

(** Replace the type variables of a class header by type arguments, everywhere. *)
Fixpoint inst (args : list texpr) (t : texpr) : texpr :=
  match t with
  | TVar i => nth i args t
  | TApp c l => TApp c (map (inst args) l)
  end.

(** Subtyping of class types: [Sub[A]] is below the instantiated base of [Sub]; type
    arguments are invariant. *)
Inductive below (tb : table) : texpr -> texpr -> Prop :=
| below_refl t : below tb t t
| below_step c args p l u :
    c_super (tb c) = Some (p, l) -> below tb (TApp p (map (inst args) l)) u -> below tb (TApp c args) u.

(** A type expression over [k] type variables with the right numbers of arguments.  A type
    without variables is one over 0 variables. *)
Inductive wf_texpr (n : nat) (tb : table) (k : nat) : texpr -> Prop :=
| wf_var i : i < k -> wf_texpr n tb k (TVar i)
| wf_app c l : c < n -> length l = c_nvars (tb c) -> Forall (wf_texpr n tb k) l -> wf_texpr n tb k (TApp c l).

(** The classes of a program: [n] of them, each defined after its base; object and NoneType
    among them. *)
Record wf_table (n : nat) (tb : table) : Prop := {
  wf_two : 2 <= n;
  wf_object : c_super (tb object_id) = None /\ c_nvars (tb object_id) = 0;
  wf_none : c_super (tb none_id) = Some (object_id, []) /\ c_nvars (tb none_id) = 0;
  wf_super : forall c, 0 < c < n -> exists p l,
    c_super (tb c) = Some (p, l) /\ p < c /\ length l = c_nvars (tb p) /\
    Forall (wf_texpr n tb (c_nvars (tb c))) l }.

(** direct_subclasses: contains the direct subclasses; may also contain indirect ones
    (analyzer.py:525 registers a class with object before its base is known). *)
Definition wf_subs (n : nat) (tb : table) : Prop :=
  (forall c d, c < n -> In d (c_subs (tb c)) -> d < n /\ d <> c /\ inherits tb d c) /\
  (forall c d, d < n -> superclass tb d = Some c -> In d (c_subs (tb c))).

(** [a] is the least common superclass of the classes [l]. *)
Definition least_common (tb : table) (l : list cid) (a : cid) : Prop :=
  (forall c, In c l -> inherits tb c a) /\
  (forall b, (forall c, In c l -> inherits tb c b) -> inherits tb a b).

(** Python's attribute lookup with single inheritance: [d] is the first class on the way
    from [c] to object that satisfies [P]. *)
Definition nearest (tb : table) (P : cid -> Prop) (c d : cid) : Prop :=
  inherits tb c d /\ P d /\ forall e, inherits tb c e -> P e -> inherits tb d e.

Definition defines_method (tb : table) (x : nat) (c : cid) : Prop := In x (c_methods (tb c)) \/ In x (c_static (tb c)).
Definition defines_function (tb : table) (x : nat) (c : cid) : Prop := In x (c_functions (tb c)).
Definition defines (tb : table) (x : nat) (c : cid) : Prop := defines_function tb x c \/ defines_method tb x c.

(** In a list, everything derived from a class comes before that class. *)
Definition derived_first (tb : table) (l : list cid) : Prop :=
  forall l1 c l2 d, l = l1 ++ c :: l2 -> In d l -> d <> c -> inherits tb d c -> In d l1.

(** Evaluation of the chains; [holds g] is the value of a guard. *)
Fixpoint run_cond {G E} (holds : G -> bool) (c : cond G E) : E :=
  match c with CLeaf e => e | CCond g e r => if holds g then e else run_cond holds r end.
Fixpoint run_ifs {G B} (holds : G -> bool) (c : ifs G B) : option B :=
  match c with IEmpty => None | IIf g b r => if holds g then Some b else run_ifs holds r end.

(** All members of all classes pass the override checks of the translator. *)
Definition accepted (n : nat) (tb : table) : Prop :=
  forall c x, c < n -> defines tb x c -> accepted_member tb c x = true.
(** No name is both a function and a method of one class. *)
Definition separate (n : nat) (tb : table) : Prop :=
  forall c x, c < n -> defines_function tb x c -> ~ defines_method tb x c.

(** The contract of method [x] of [c] has been compared, step by step, with that of [d]. *)
Inductive checked (tb : table) (x : nat) : cid -> cid -> Prop :=
| chk_refl c : checked tb x c c
| chk_step c p d : override_check tb x c p = true -> checked tb x p d -> checked tb x c d.

(** The value of a type without variables. *)
Definition denote (I : interp) (t : texpr) : PyType I := type_literal I [] t.

(** The class types that the classes and generic types of the analyzer stand for. *)
Definition ptype_texpr (t : ptype) : texpr :=
  match t with PCls c => TApp c [] | PGen c args => TApp c args end.

(** The list of the first [k] type variables; types without variables. *)
Definition vars (k : nat) : list texpr := map TVar (seq 0 k).
Fixpoint no_var (t : texpr) : bool := match t with TVar _ => false | TApp _ l => forallb no_var l end.
