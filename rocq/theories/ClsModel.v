(** Classes: lookup and subtyping on the class nodes, override checks, dispatch on union
    receivers, and the PyType domain that represents classes in the Viper program.
    Models parts of /repo/src/nagini_translation/lib/program_nodes.py,
    translators/type_domain_factory.py, translators/program.py and translators/common.py. *)
From Coq Require Import Bool Arith List.
Import ListNotations.

(** A class is a number: its position in the order of definition.  Number 0 is
    [object], number 1 is [NoneType]. *)
Definition cid := nat.
Definition object_id : cid := 0.
Definition none_id : cid := 1.

(** Types as they occur in a class header, e.g. [Super[T, List[int]]]: a type variable
    (by its index, TypeVar.index) or a class applied to type arguments.  A PythonClass
    that is not generic is [TApp c []]. *)
Inductive texpr :=
| TVar (i : nat)
| TApp (c : cid) (args : list texpr).

(** program_nodes.py:392-428 (PythonClass.__init__): the attributes read below.  Members
    are names (numbers).  [c_super] is None for object only (analyzer.py:657-667); it is a
    class with type arguments when the base is subscripted.  [c_subs] is direct_subclasses.
    Fields, predicates and static fields are looked up like functions. *)
Record cls := {
  c_super : option (cid * list texpr);
  c_nvars : nat;
  c_functions : list nat;
  c_methods : list nat;
  c_static : list nat;
  c_subs : list cid }.
Definition table := cid -> cls.

Definition superclass (tb : table) (c : cid) : option cid := option_map fst (c_super (tb c)).

Definition mem (x : nat) (l : list nat) : bool := existsb (Nat.eqb x) l.

(** The recursion below runs along the superclass chain; [fuel] bounds its length (a
    class is defined after its superclass, so S c steps suffice).  The Python code recurses
    without bound. *)

(** program_nodes.py:711-716 PythonClass.issubtype with a PythonClass argument. *)
Fixpoint issubtype_f (fuel : nat) (tb : table) (c d : cid) : bool :=
  match fuel with
  | O => false
  | S f =>
    if d =? c then true
    else match superclass tb c with None => false | Some p => issubtype_f f tb p d end
  end.
Definition issubtype (tb : table) (c d : cid) : bool := issubtype_f (S c) tb c d.

(** program_nodes.py:718-732 get_common_superclass; [None]: the assertion fails. *)
Fixpoint common_f (fuel : nat) (tb : table) (c d : cid) : option cid :=
  match fuel with
  | O => None
  | S f =>
    if issubtype tb c d then Some d
    else if issubtype tb d c then Some c
    else match superclass tb c with
         | Some p => common_f f tb p d
         | None => match superclass tb d with Some q => common_f f tb c q | None => None end
         end
  end.
Definition get_common_superclass (tb : table) (c d : cid) : option cid := common_f (S (c + d)) tb c d.

(** program_nodes.py:939-953 UnionType.cls over the non-None options (their classes). *)
Definition union_cls (tb : table) (args : list cid) : option cid :=
  match args with
  | [] => None
  | c :: _ =>
    fold_left (fun acc d => match acc with None => None | Some a => get_common_superclass tb a d end) args (Some c)
  end.

(** program_nodes.py:551-560, 562-572, 595-604, 631-640: lookup of a field, static field,
    function or predicate: in the class, else in the superclass.  The answer is the class
    whose dictionary holds the member. *)
Fixpoint lookup_f (fuel : nat) (sel : cls -> list nat) (tb : table) (c : cid) (x : nat) : option cid :=
  match fuel with
  | O => None
  | S f =>
    if mem x (sel (tb c)) then Some c
    else match superclass tb c with Some p => lookup_f f sel tb p x | None => None end
  end.
Definition get_function (tb : table) (c : cid) (x : nat) : option cid := lookup_f (S c) c_functions tb c x.

(** program_nodes.py:574-585 get_method: methods, then static methods, then the superclass. *)
Fixpoint get_method_f (fuel : nat) (tb : table) (c : cid) (x : nat) : option cid :=
  match fuel with
  | O => None
  | S f =>
    if mem x (c_methods (tb c)) then Some c
    else if mem x (c_static (tb c)) then Some c
    else match superclass tb c with Some p => get_method_f f tb p x | None => None end
  end.
Definition get_method (tb : table) (c : cid) (x : nat) : option cid := get_method_f (S c) tb c x.

(** program_nodes.py:606-614 get_func_or_method. *)
Definition get_func_or_method (tb : table) (c : cid) (x : nat) : option cid :=
  match get_function tb c x with Some d => Some d | None => get_method tb c x end.

(** program_nodes.py:474-482 all_subclasses; [fuel] bounds the depth of the recursion. *)
Fixpoint all_subclasses_f (fuel : nat) (tb : table) (c : cid) : list cid :=
  match fuel with
  | O => []
  | S f => c :: flat_map (all_subclasses_f f tb) (c_subs (tb c))
  end.
(** [n] is the number of classes. *)
Definition all_subclasses (n : nat) (tb : table) (c : cid) : list cid := all_subclasses_f (n - c) tb c.

(** program_nodes.py:1943-1953 toposort_classes, with toposort_flatten of the toposort
    package: take out all elements without remaining dependencies (an element does not
    count as its own dependency), then repeat.  [None]: circular dependency.  The order
    inside one batch is a set order in Python, here the order of the given list. *)
Definition class_deps (n : nat) (tb : table) (set : list cid) (c : cid) : list cid :=
  filter (fun d => mem d set) (all_subclasses n tb c).
Fixpoint toposort_f (fuel : nat) (deps : cid -> list cid) (rest : list cid) : option (list cid) :=
  match rest with
  | [] => Some []
  | _ =>
    match fuel with
    | O => None
    | S f =>
      let blocked c := existsb (fun d => negb (d =? c) && mem d rest) (deps c) in
      let ready := filter (fun c => negb (blocked c)) rest in
      match ready with
      | [] => None
      | _ => option_map (app ready) (toposort_f f deps (filter blocked rest))
      end
    end
  end.
Definition toposort_classes (n : nat) (tb : table) (set : list cid) : option (list cid) :=
  toposort_f (length set) (class_deps n tb set) set.

(** program_nodes.py:1969-1982 chain_cond_exp: nested conditional expressions; the guard of
    the last pair is dropped.  [None]: the list is empty. *)
Inductive cond (G E : Type) :=
| CLeaf (e : E)
| CCond (g : G) (e : E) (rest : cond G E).
Arguments CLeaf {G E}. Arguments CCond {G E}.
Fixpoint chain_cond_exp {G E} (l : list (G * E)) : option (cond G E) :=
  match l with
  | [] => None
  | [(_, e)] => Some (CLeaf e)
  | [(g, e); (_, e')] => Some (CCond g e (CLeaf e'))
  | (g, e) :: l' => option_map (CCond g e) (chain_cond_exp l')
  end.
(** program_nodes.py:1955-1967 chain_if_stmts: nested if statements, the last else branch is
    empty. *)
Inductive ifs (G B : Type) :=
| IEmpty
| IIf (g : G) (b : B) (rest : ifs G B).
Arguments IEmpty {G B}. Arguments IIf {G B}.
Fixpoint chain_if_stmts {G B} (l : list (G * B)) : ifs G B :=
  match l with
  | [] => IEmpty
  | (g, b) :: l' => IIf g b (chain_if_stmts l')
  end.

(** common.py:735-755 get_function_call and call.py:1179-1224 _translate_union_call on a
    union receiver: one guard [isinstance(receiver, c)] (a type_check, i.e. a subtype test)
    and one target per class, in the order of toposort_classes. *)
Definition union_dispatch (n : nat) (tb : table) (set : list cid) (x : nat) : option (cond cid (option cid)) :=
  match toposort_classes n tb set with
  | None => None
  | Some order => chain_cond_exp (map (fun c => (c, get_func_or_method tb c x)) order)
  end.
Definition union_dispatch_stmt (n : nat) (tb : table) (set : list cid) (x : nat) : option (ifs cid (option cid)) :=
  option_map (fun order => chain_if_stmts (map (fun c => (c, get_func_or_method tb c x)) order))
             (toposort_classes n tb set).

(** * Override checks *)

(** program_nodes.py:734-744 get_contents(False) of a class, as a set of names: only the
    dictionaries of the class itself.  Fields, static fields, type variables and predicates
    are left out. *)
Definition get_contents (tb : table) (c : cid) : list nat :=
  c_static (tb c) ++ c_functions (tb c) ++ c_methods (tb c).

(** program_nodes.py:1139-1152 PythonMethod.process: the attribute [overrides]. *)
Definition overrides (tb : table) (c : cid) (x : nat) : option cid :=
  match superclass tb c with
  | None => None
  | Some p => if mem x (get_contents tb p) then Some p else None
  end.

(** program.py:1418-1461, 415-437: is the member [x] of class [c] accepted?  A function must
    not override anything (the exceptions, __eq__ etc. of object, are left out); a method or
    static method that overrides something gets an override check, which rejects an
    overridden pure function.  Both [__init__] and the comparison of argument lists and
    exceptions are left out. *)
Definition is_function (tb : table) (c : cid) (x : nat) : bool := mem x (c_functions (tb c)).
Definition accepted_member (tb : table) (c : cid) (x : nat) : bool :=
  match overrides tb c x with
  | None => true
  | Some p => negb (is_function tb c x) && negb (is_function tb p x)
  end.
(** The pairs (overriding class, overridden class) for which an override check of method
    [x] is emitted: program.py:1440-1447, 1455-1459. *)
Definition override_check (tb : table) (x : nat) (c d : cid) : bool :=
  (mem x (c_methods (tb c)) || mem x (c_static (tb c))) &&
  match overrides tb c x with Some p => p =? d | None => false end.

(** * Generic types *)

(** PythonClass and GenericType (program_nodes.py:387, 781) with type arguments; union,
    optional and type variable types are left out. *)
Inductive ptype :=
| PCls (c : cid)
| PGen (c : cid) (args : list texpr).

Fixpoint texpr_eqb (a b : texpr) {struct a} : bool :=
  match a, b with
  | TVar i, TVar j => i =? j
  | TApp c xs, TApp d ys =>
    (c =? d) &&
    (fix go (l m : list texpr) {struct l} : bool :=
       match l, m with
       | [], [] => true
       | x :: l', y :: m' => texpr_eqb x y && go l' m'
       | _, _ => false
       end) xs ys
  | _, _ => false
  end.
Fixpoint texprs_eqb (l m : list texpr) : bool :=
  match l, m with
  | [], [] => true
  | x :: l', y :: m' => texpr_eqb x y && texprs_eqb l' m'
  | _, _ => false
  end.

(** program_nodes.py:819-832 GenericType.superclass: type variables that are arguments of
    the base are replaced; other arguments are kept as they are. *)
Definition shallow_subst (args : list texpr) (t : texpr) : texpr :=
  match t with TVar i => nth i args t | _ => t end.
Definition generic_superclass (tb : table) (c : cid) (args : list texpr) : option ptype :=
  match c_super (tb c) with
  | None => None
  | Some (p, []) => Some (PCls p)
  | Some (p, l) => Some (PGen p (map (shallow_subst args) l))
  end.
(** PythonClass.superclass as a type. *)
Definition class_superclass (tb : table) (c : cid) : option ptype :=
  match c_super (tb c) with
  | None => None
  | Some (p, []) => Some (PCls p)
  | Some (p, l) => Some (PGen p l)
  end.

(** program_nodes.py:711-716 (class against any type) and 890-896 (generic type). *)
Definition generic_issubtype (tb : table) (c : cid) (args : list texpr) (u : ptype) : bool :=
  match u with
  | PGen d bs => issubtype tb c d && texprs_eqb args bs
  | PCls d => issubtype tb c d
  end.
Fixpoint class_issubtype_f (fuel : nat) (tb : table) (c : cid) (u : ptype) : bool :=
  match fuel with
  | O => false
  | S f =>
    if match u with PCls d => d =? c | PGen _ _ => false end then true
    else match class_superclass tb c with
         | None => false
         | Some (PCls p) => class_issubtype_f f tb p u
         | Some (PGen p l) => generic_issubtype tb p l u
         end
  end.
Definition ptype_issubtype (tb : table) (t u : ptype) : bool :=
  match t with
  | PCls c => class_issubtype_f (S c) tb c u
  | PGen c args => generic_issubtype tb c args u
  end.

(** * The PyType domain *)

(** An interpretation of the domain functions (type_domain_factory.py:63-75, 77-93, 225-230,
    261-273, 321-342).  [union_type] stands for union_type_1 .. union_type_4 (by the length
    of the list), [cls_type c] for the type function of class [c], [cls_basic c] for its
    <name>_basic constant, [cls_arg c] for its <name>_arg function.  Tuple types are left
    out. *)
Record interp := {
  PyType : Type;
  Ref : Type;
  null : Ref;
  typeof : Ref -> PyType;
  extends_ : PyType -> PyType -> bool;
  subtype : PyType -> PyType -> bool;
  isnotsubtype : PyType -> PyType -> bool;
  get_basic : PyType -> PyType;
  union_basic : PyType;
  union_type : list PyType -> PyType;
  cls_type : cid -> list PyType -> PyType;
  cls_basic : cid -> PyType;
  cls_arg : cid -> PyType -> nat -> PyType }.

(** translate_type_literal (838-890) of a type expression over the type arguments [args]. *)
Fixpoint type_literal (I : interp) (args : list (PyType I)) (t : texpr) : PyType I :=
  match t with
  | TVar i => nth i args (union_basic I)
  | TApp c l => cls_type I c (map (type_literal I args) l)
  end.

(** The nullary functions declared [unique] (225-230, 321-342); the verifier adds that they
    are pairwise distinct. *)
Inductive uniq := UType (c : cid) | UBasic (c : cid) | UUnion.
Definition uniq_value (I : interp) (u : uniq) : PyType I :=
  match u with UType c => cls_type I c [] | UBasic c => cls_basic I c | UUnion => union_basic I end.
Definition declared_uniq (n : nat) (tb : table) (u : uniq) : Prop :=
  match u with
  | UType c => c < n /\ c_nvars (tb c) = 0
  | UBasic c => c < n /\ c_nvars (tb c) <> 0
  | UUnion => True
  end.
Definition ax_unique (n : nat) (tb : table) (I : interp) : Prop :=
  forall u v, declared_uniq n tb u -> declared_uniq n tb v -> uniq_value I u = uniq_value I v -> u = v.

(** 656-694 *)
Definition ax_transitivity (I : interp) : Prop := forall sub middle super,
  subtype I sub middle && subtype I middle super = true -> subtype I sub super = true.
(** 696-711 *)
Definition ax_reflexivity (I : interp) : Prop := forall t, subtype I t t = true.
(** 465-491 *)
Definition ax_extends (I : interp) : Prop := forall sub sub2,
  extends_ I sub sub2 = true -> subtype I sub sub2 = true.
(** 602-624 *)
Definition ax_null_type (I : interp) : Prop := forall r,
  subtype I (typeof I r) (cls_type I none_id []) = true <-> r = null I.
(** 626-646 *)
Definition ax_nothing_union (I : interp) : Prop := forall r, get_basic I (typeof I r) <> union_basic I.
(** 713-731 *)
Definition ax_object (I : interp) : Prop := forall t, subtype I t (cls_type I object_id []) = true.
(** 521-559 *)
Definition ax_exclusion (I : interp) : Prop := forall sub sub2 super,
  extends_ I sub super && extends_ I sub2 super = true -> sub <> sub2 ->
  isnotsubtype I sub sub2 && isnotsubtype I sub2 sub = true.
(** 493-519 *)
Definition ax_exclusion_2 (I : interp) : Prop := forall sub super,
  subtype I sub super = true -> sub <> super -> negb (subtype I super sub) = true.
(** 561-600 *)
Definition ax_propagation (I : interp) : Prop := forall sub middle super,
  subtype I sub middle && isnotsubtype I middle super = true -> negb (subtype I sub super) = true.
(** 95-129 *)
Definition ax_union_basic (I : interp) : Prop := forall args, 1 <= length args <= 4 ->
  get_basic I (union_type I args) = union_basic I.
(** 131-175 *)
Definition ax_union_subtype (I : interp) : Prop := forall args X, 1 <= length args <= 4 ->
  get_basic I X <> union_basic I ->
  subtype I X (union_type I args) = fold_left (fun acc a => acc || subtype I X a) args false.
(** 177-215 *)
Definition ax_subtype_union (I : interp) : Prop := forall args X, 1 <= length args <= 4 ->
  subtype I (union_type I args) X = fold_left (fun acc a => acc && subtype I a X) args true.

(** 232-259, 383-463: the axiom of each class other than object. *)
Definition ax_class (n : nat) (tb : table) (I : interp) : Prop := forall c p l args,
  c < n -> c_super (tb c) = Some (p, l) -> length args = c_nvars (tb c) ->
  extends_ I (cls_type I c args) (cls_type I p (map (type_literal I args) l)) = true /\
  get_basic I (cls_type I c args) = (if c_nvars (tb c) =? 0 then cls_type I c args else cls_basic I c).
(** 275-319 *)
Definition ax_args (n : nat) (tb : table) (I : interp) : Prop := forall c args Z i d,
  c < n -> length args = c_nvars (tb c) -> i < c_nvars (tb c) ->
  subtype I Z (cls_type I c args) = true -> cls_arg I c Z i = nth i args d.

(** The axioms without those about unions. *)
Definition class_axioms (n : nat) (tb : table) (I : interp) : Prop :=
  ax_unique n tb I /\ ax_transitivity I /\ ax_reflexivity I /\ ax_extends I /\ ax_null_type I /\
  ax_nothing_union I /\ ax_object I /\ ax_exclusion I /\ ax_exclusion_2 I /\ ax_propagation I /\
  ax_class n tb I /\ ax_args n tb I.
Definition union_axioms (I : interp) : Prop := ax_union_basic I /\ ax_union_subtype I /\ ax_subtype_union I.
(** 45-61 get_default_axioms together with the class axioms. *)
Definition type_axioms (n : nat) (tb : table) (I : interp) : Prop := class_axioms n tb I /\ union_axioms I.
(** The same without issubtype_exclusion_2. *)
Definition type_axioms_without_exclusion_2 (n : nat) (tb : table) (I : interp) : Prop :=
  ax_unique n tb I /\ ax_transitivity I /\ ax_reflexivity I /\ ax_extends I /\ ax_null_type I /\
  ax_nothing_union I /\ ax_object I /\ ax_exclusion I /\ ax_propagation I /\
  ax_class n tb I /\ ax_args n tb I /\ union_axioms I.
