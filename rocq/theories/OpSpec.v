(** Python's rules for operators (The Python Language Reference, 3.3.8 "Emulating numeric
    types", 3.3.1 "rich comparison" methods and 6.10.1 "Value comparisons"), for classes with
    single inheritance. *)
From Coq Require Import Bool Arith List String.
From Verif Require Import ClsModel ClsSpec OpModel.
Import ListNotations.

(** The base name of the special methods of an operator. *)
Definition base_name (o : binop) : string :=
  match o with
  | Add => "add" | Sub => "sub" | Mult => "mul" | MatMult => "matmul" | Div => "truediv"
  | FloorDiv => "floordiv" | Mod => "mod" | Pow => "pow" | LShift => "lshift" | RShift => "rshift"
  | BitAnd => "and" | BitOr => "or" | BitXor => "xor"
  end.
Definition special (prefix : string) (o : binop) : string := ("__" ++ prefix ++ base_name o ++ "__")%string.
(** [__op__], [__rop__] and [__iop__]. *)
Definition left_id (o : binop) : nat := member_id (special "" o).
Definition right_id (o : binop) : nat := member_id (special "r" o).
Definition inplace_id (o : binop) : nat := member_id (special "i" o).

(** Attribute lookup on a class: the nearest definition. *)
Definition finds (tb : table) (c : cid) (x : nat) (d : cid) : Prop := nearest tb (defines tb x) c d.

(** [handles d x c]: the member [x] of class [d], called with an argument of class [c],
    returns a result other than NotImplemented. *)
Definition handling := cid -> nat -> cid -> Prop.

(** The class of the right operand is a proper subclass of that of the left operand and
    provides a different implementation of the reflected method. *)
Definition overloads (tb : table) (x : nat) (l r : cid) : Prop :=
  r <> l /\ inherits tb r l /\ exists d, finds tb r x d /\ ~ finds tb l x d.

(** The Python data model's special method of a unary operator. *)
Definition py_unary_method (o : unop) : string :=
  match o with UAdd => "__pos__" | USub => "__neg__" | Invert => "__invert__" end%string.

(** [py_binop tb h o l r swapped d x]: for operands whose classes are [l] and [r] the operator
    is computed by the member [x] of class [d], with the operands exchanged or not. *)
Inductive py_binop (tb : table) (h : handling) (o : binop) (l r : cid) : bool -> cid -> nat -> Prop :=
| py_reflected_first d :
    overloads tb (right_id o) l r -> finds tb r (right_id o) d -> h d (right_id o) l ->
    py_binop tb h o l r true d (right_id o)
| py_left d :
    (overloads tb (right_id o) l r -> forall e, finds tb r (right_id o) e -> ~ h e (right_id o) l) ->
    finds tb l (left_id o) d -> h d (left_id o) r ->
    py_binop tb h o l r false d (left_id o)
| py_reflected d :
    r <> l -> ~ overloads tb (right_id o) l r ->
    (forall e, finds tb l (left_id o) e -> ~ h e (left_id o) r) ->
    finds tb r (right_id o) d -> h d (right_id o) l ->
    py_binop tb h o l r true d (right_id o).

(** Augmented assignment: the in-place method, else the operator. *)
Inductive py_augassign (tb : table) (h : handling) (o : binop) (l r : cid) : bool -> cid -> nat -> Prop :=
| py_inplace d :
    finds tb l (inplace_id o) d -> h d (inplace_id o) r -> py_augassign tb h o l r false d (inplace_id o)
| py_not_inplace s d x :
    (forall e, finds tb l (inplace_id o) e -> ~ h e (inplace_id o) r) ->
    py_binop tb h o l r s d x -> py_augassign tb h o l r s d x.

(** A value of class [c] belongs to a declared parameter type. *)
Definition belongs (tb : table) (p : param) (c : cid) : Prop :=
  match p with
  | PClass k => inherits tb c k
  | PUnion ks => Exists (inherits tb c) ks
  end.
(** The members [x] have the parameters self and another one and handle exactly the arguments
    that belong to the declared type of the latter. *)
Definition declared (n : nat) (P : program) (h : handling) (x : nat) : Prop :=
  forall d, d < n -> defines (classes P) x d ->
    exists p, s_params (sigs P d x) = [PClass d; p] /\
              forall c, c < n -> (h d x c <-> belongs (classes P) p c).
(** No method [x] of a superclass of [c] (or of [c]) shadows a pure function [x] above it. *)
Definition no_shadow (tb : table) (x : nat) (c : cid) : Prop :=
  forall d e, inherits tb c d -> inherits tb d e -> defines_method tb x d -> ~ defines_function tb x e.
(** A class that redefines [x] redefines the one of its direct base class; built-in classes do
    not redefine [x]. *)
Definition direct_redefinition (P : program) (x : nat) (c : cid) : Prop :=
  forall d e, inherits (classes P) c d -> defines (classes P) x d -> inherits (classes P) d e -> d <> e ->
    defines (classes P) x e -> builtin P d = false /\ exists p, superclass (classes P) d = Some p /\ defines (classes P) x p.
(** The definition of [x] that [c] uses redefines no other one. *)
Definition original (tb : table) (x : nat) (c : cid) : Prop :=
  forall d e, finds tb c x d -> inherits tb d e -> defines tb x e -> e = d.

(** ** Comparisons *)
Definition compare_name (o : cmpop) : string :=
  match o with Eq => "eq" | NotEq => "ne" | Lt => "lt" | LtE => "le" | Gt => "gt" | GtE => "ge" end.
Definition compare_id (o : cmpop) : nat := member_id ("__" ++ compare_name o ++ "__")%string.
(** The reflection of a comparison: [a < b] is tried as [b > a]. *)
Definition reflection (o : cmpop) : cmpop :=
  match o with Eq => Eq | NotEq => NotEq | Lt => Gt | LtE => GtE | Gt => Lt | GtE => LtE end.
(** The method used for [o] by an object of class [c]: its special method; without a
    definition of [__ne__], the negation of [__eq__]. *)
Inductive compare_method (tb : table) (o : cmpop) (c : cid) : bool -> cid -> nat -> Prop :=
| cm_own d : finds tb c (compare_id o) d -> compare_method tb o c false d (compare_id o)
| cm_default d : o = NotEq -> (forall e, ~ finds tb c (compare_id NotEq) e) -> finds tb c (compare_id Eq) d ->
    compare_method tb o c true d (compare_id Eq).
(** How a comparison is decided: by a method (with the operands exchanged or not, and possibly
    negated) or by the identity of the operands. *)
Inductive decision :=
| ByMethod (swapped negated : bool) (d : cid) (x : nat)
| ByIdentity (negated : bool).
(** [__eq__] of class object never handles another object; the identity of an object with
    itself is covered by [ByIdentity]. *)
Inductive py_compare (tb : table) (h : handling) (o : cmpop) (l r : cid) : decision -> Prop :=
| pc_reflected_first g d x :
    r <> l -> inherits tb r l -> compare_method tb (reflection o) r g d x -> h d x l ->
    py_compare tb h o l r (ByMethod true g d x)
| pc_left g d x :
    (r <> l -> inherits tb r l -> forall g' e y, compare_method tb (reflection o) r g' e y -> ~ h e y l) ->
    compare_method tb o l g d x -> h d x r ->
    py_compare tb h o l r (ByMethod false g d x)
| pc_reflected g d x :
    ~ (r <> l /\ inherits tb r l) ->
    (forall g' e y, compare_method tb o l g' e y -> ~ h e y r) ->
    compare_method tb (reflection o) r g d x -> h d x l ->
    py_compare tb h o l r (ByMethod true g d x)
| pc_identity :
    (o = Eq \/ o = NotEq) ->
    (forall g' e y, compare_method tb o l g' e y -> ~ h e y r) ->
    (forall g' e y, compare_method tb (reflection o) r g' e y -> ~ h e y l) ->
    py_compare tb h o l r (ByIdentity (match o with NotEq => true | _ => false end)).
(** Class object: the only comparison method is the pure [__eq__], which decides nothing
    beyond identity. *)
Definition object_compares (tb : table) (h : handling) : Prop :=
  (forall o, defines tb (compare_id o) object_id <-> o = Eq) /\
  defines_function tb (compare_id Eq) object_id /\
  (forall c, ~ h object_id (compare_id Eq) c).
