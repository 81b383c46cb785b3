(** Operators: which method an operator expression, an augmented assignment or a comparison
    is verified against, and the type given to an operator expression.
    Models parts of /repo/src/nagini_translation/translators/expression.py,
    translators/statement.py, translators/common.py, lib/resolver.py, lib/constants.py and
    lib/program_nodes.py, on top of the class tables of [ClsModel]. *)
From Coq Require Import Bool Arith List String.
From Verif Require Import ClsModel.
Import ListNotations.

(** * Names *)

(** The binary operators of the ast module that have a table entry below. *)
Inductive binop :=
| Add | Sub | Mult | MatMult | Div | FloorDiv | Mod | Pow | LShift | RShift | BitAnd | BitOr | BitXor.
(** The rich comparison operators (ast.Eq ... ast.GtE). *)
Inductive cmpop := Eq | NotEq | Lt | LtE | Gt | GtE.

(** constants.py:408-422 LEFT_OPERATOR_FUNCTIONS *)
Definition LEFT_OPERATOR_FUNCTIONS (o : binop) : string :=
  match o with
  | Add => "__add__" | Sub => "__sub__" | Mult => "__mul__" | MatMult => "__matmul__"
  | Div => "__truediv__" | FloorDiv => "__floordiv__" | Mod => "__mod__" | Pow => "__pow__"
  | LShift => "__lshift__" | RShift => "__rshift__" | BitAnd => "__and__" | BitOr => "__or__"
  | BitXor => "__xor__"
  end.
(** constants.py:424-438 INPLACE_OPERATOR_FUNCTIONS *)
Definition INPLACE_OPERATOR_FUNCTIONS (o : binop) : string :=
  match o with
  | Add => "__iadd__" | Sub => "__isub__" | Mult => "__imul__" | MatMult => "__imatmul__"
  | Div => "__itruediv__" | FloorDiv => "__ifloordiv__" | Mod => "__imod__" | Pow => "__ipow__"
  | LShift => "__ilshift__" | RShift => "__irshift__" | BitAnd => "__iand__" | BitOr => "__ior__"
  | BitXor => "__ixor__"
  end.
(** constants.py:440-454 RIGHT_OPERATOR_FUNCTIONS *)
Definition RIGHT_OPERATOR_FUNCTIONS (o : binop) : string :=
  match o with
  | Add => "__radd__" | Sub => "__rsub__" | Mult => "__rmul__" | MatMult => "__rmatmul__"
  | Div => "__rtruediv__" | FloorDiv => "__rfloordiv__" | Mod => "__rmod__" | Pow => "__rpow__"
  | LShift => "__rlshift__" | RShift => "__rrshift__" | BitAnd => "__rand__" | BitOr => "__ror__"
  | BitXor => "__rxor__"
  end.
(** expression.py:1507-1520: the name of the comparison function. *)
Definition compare_func (o : cmpop) : string :=
  match o with
  | Eq => "__eq__" | NotEq => "__ne__" | Gt => "__gt__" | GtE => "__ge__" | Lt => "__lt__" | LtE => "__le__"
  end.

(** constants.py:224-296 LEGAL_MAGIC_METHODS, the entries used here, and the two names of
    functions that only built-in classes have. *)
Definition magic : list string :=
  [ "__eq__"; "__ne__"; "__gt__"; "__ge__"; "__lt__"; "__le__";
    "__add__"; "__sub__"; "__mul__"; "__matmul__"; "__truediv__"; "__floordiv__"; "__mod__"; "__pow__";
    "__lshift__"; "__rshift__"; "__and__"; "__or__"; "__xor__";
    "__neg__"; "__pos__"; "__invert__";
    "__radd__"; "__rsub__"; "__rmul__"; "__rmatmul__"; "__rtruediv__"; "__rfloordiv__"; "__rmod__"; "__rpow__";
    "__rlshift__"; "__rrshift__"; "__rand__"; "__rxor__"; "__ror__";
    "__iadd__"; "__isub__"; "__imul__"; "__imatmul__"; "__itruediv__"; "__ifloordiv__"; "__imod__"; "__ipow__";
    "__ilshift__"; "__irshift__"; "__iand__"; "__ior__"; "__ixor__";
    "__contains__"; "__pow_unrolled__" ]%string.
(** Members of classes are numbers in [ClsModel]; a magic name is its position in [magic]. *)
Fixpoint index (s : string) (l : list string) : nat :=
  match l with
  | [] => 0
  | t :: l' => if String.eqb s t then 0 else S (index s l')
  end.
Definition member_id (s : string) : nat := index s magic.

(** * Signatures *)

(** The declared type of a parameter, boxed (try_box): a class or a union of classes.
    Generic types are represented by their class and type variables are left out. *)
Inductive param :=
| PClass (c : cid)
| PUnion (cs : list cid).
(** The parameters of a function or method (self first) and its result type. *)
Record sig := { s_params : list param; s_type : cid }.
(** [sg c x] is the signature of the member [x] in the dictionaries of class [c]; [builtin c]
    says that the class comes from builtins.json (interface). *)
Record program := {
  classes : table;
  sigs : cid -> nat -> sig;
  builtin : cid -> bool }.

(** program_nodes.py:621-627: one parameter and one argument type. *)
Definition param_ok (tb : table) (p : param) (a : cid) : bool :=
  match p with
  | PUnion cs => existsb (fun c => issubtype tb a c) cs
  | PClass c => issubtype tb a c
  end.
(** program_nodes.py:622 zip: stops at the end of the shorter list. *)
Fixpoint params_ok (tb : table) (ps : list param) (args : list cid) : bool :=
  match ps, args with
  | p :: ps', a :: args' => param_ok tb p a && params_ok tb ps' args'
  | _, _ => true
  end.
(** program_nodes.py:616-629 get_compatible_func_or_method; a found function is given by the
    class that defines it. *)
Definition get_compatible_func_or_method (P : program) (c : cid) (x : nat) (args : list cid) : option cid :=
  match get_func_or_method (classes P) c x with
  | None => None
  | Some d => if params_ok (classes P) (s_params (sigs P d x)) args then Some d else None
  end.

(** program_nodes.py:1135-1152: [overrides] of the member [x] of class [d]; it is not set for
    built-in members (1135-1136). *)
Definition method_overrides (P : program) (d : cid) (x : nat) : option cid :=
  if builtin P d then None else overrides (classes P) d x.

(** * Binary operators *)

(** What an operator expression is translated to: a call of the member [x] defined in class
    [d], with the operands as they are ([swapped = false]) or exchanged. *)
Inductive target :=
| Calls (swapped : bool) (d : cid) (x : nat)
| Rejected                                   (* UnsupportedException, InvalidProgramException *)
| Crash.                                     (* None is returned and unpacked *)

(** common.py:549-564 get_func_or_method_call: has_function and get_function find the same
    member (program_nodes.py:587-604). *)
Definition get_func_or_method_call (P : program) (swapped : bool) (receiver : cid) (x : nat) : target :=
  match get_function (classes P) receiver x with
  | Some d => Calls swapped d x
  | None => match get_method (classes P) receiver x with
            | Some d => Calls swapped d x
            | None => Rejected
            end
  end.

(** expression.py:1291-1334 translate_operator for operand types that are classes.
    [int_pow_const]: the left operand is an int, the operator is ** and the right operand an
    integer literal (1309-1311).  The primitive operations of 1302-1305 are comparisons of
    algebraic data types only, see [translate_comparison]. *)
Definition translate_operator (P : program) (o : binop) (int_pow_const : bool) (left_type right_type : cid) : target :=
  if left_type =? right_type then
    let func_name := if int_pow_const then "__pow_unrolled__"%string else LEFT_OPERATOR_FUNCTIONS o in
    get_func_or_method_call P false left_type (member_id func_name)
  else
    let right_func_name := member_id (RIGHT_OPERATOR_FUNCTIONS o) in
    let left_func_name := member_id (LEFT_OPERATOR_FUNCTIONS o) in
    let right_func := get_compatible_func_or_method P right_type right_func_name [right_type; left_type] in
    let left_func := get_compatible_func_or_method P left_type left_func_name [left_type; right_type] in
    let rest :=
      match left_func, right_func with
      | Some _, _ => get_func_or_method_call P false left_type left_func_name
      | None, Some _ => get_func_or_method_call P true right_type right_func_name
      | None, None => Crash
      end in
    match right_func with
    | Some d =>
      if issubtype (classes P) right_type left_type then
        let base_right_func := get_compatible_func_or_method P left_type right_func_name [right_type; left_type] in
        match method_overrides P d right_func_name, base_right_func with
        | None, Some _ => rest
        | _, _ => get_func_or_method_call P true right_type right_func_name
        end
      else rest
    | None => rest
    end.

(** statement.py:444-461 translate_stmt_AugAssign: the method called for [x op= e]. *)
Definition translate_augassign (P : program) (o : binop) (int_pow_const : bool) (left_type right_type : cid) : target :=
  let inplace_func_name := member_id (INPLACE_OPERATOR_FUNCTIONS o) in
  match get_compatible_func_or_method P left_type inplace_func_name [left_type; right_type] with
  | Some _ => get_func_or_method_call P false left_type inplace_func_name
  | None => translate_operator P o int_pow_const left_type right_type
  end.

(** resolver.py:342-366: the type of an operator expression; [None]: UnsupportedException. *)
Definition binop_type (P : program) (o : binop) (left_type right_type : cid) : option cid :=
  let left_func_name := member_id (LEFT_OPERATOR_FUNCTIONS o) in
  let right_func_name := member_id (RIGHT_OPERATOR_FUNCTIONS o) in
  let typ x func := option_map (fun d => s_type (sigs P d x)) func in
  if left_type =? right_type then
    typ left_func_name (get_func_or_method (classes P) left_type left_func_name)
  else
    let right_func := get_compatible_func_or_method P right_type right_func_name [right_type; left_type] in
    let left_func := get_compatible_func_or_method P left_type left_func_name [left_type; right_type] in
    let rest :=
      match right_func with
      | Some _ => typ right_func_name right_func
      | None => typ left_func_name left_func
      end in
    match right_func with
    | Some d =>
      if issubtype (classes P) right_type left_type then
        let base_right_func := get_compatible_func_or_method P left_type right_func_name [right_type; left_type] in
        match method_overrides P d right_func_name, base_right_func with
        | None, Some _ => rest
        | _, _ => typ right_func_name right_func
        end
      else rest
    | None => rest
    end.

(** expression.py:1202-1211 translate_UnaryOp for +, - and ~. *)
Inductive unop := UAdd | USub | Invert.
Definition unary_func (o : unop) : string :=
  match o with UAdd => "__pos__" | USub => "__neg__" | Invert => "__invert__" end.
Definition translate_unary (P : program) (o : unop) (operand_type : cid) : target :=
  get_func_or_method_call P false operand_type (member_id (unary_func o)).
(** resolver.py:368-377 *)
Definition unary_type (P : program) (o : unop) (operand_type : cid) : option cid :=
  let x := member_id (unary_func o) in
  option_map (fun d => s_type (sigs P d x)) (get_func_or_method (classes P) operand_type x).

(** * Comparisons *)

(** What a comparison is translated to: a call of a comparison function (negated for the
    default of !=), or the equality [object___eq__] of objects. *)
Inductive ctarget :=
| CCalls (negated : bool) (d : cid) (x : nat)
| CObject (negated : bool)
| CRejected.

(** common.py:757-764 in get_function_call: __eq__ of class object is the domain function
    object___eq__. *)
Definition get_function_call (P : program) (negated : bool) (receiver : cid) (x : nat) : ctarget :=
  match get_function (classes P) receiver x with
  | None => CRejected
  | Some d =>
    if (x =? member_id "__eq__") && (d =? object_id) then CObject negated else CCalls negated d x
  end.
(** expression.py:1507-1537, the end of _translate_comparison, for operand types that are
    classes; enums (1491-1497) and algebraic data types (1499-1502) are left out. *)
Definition translate_comparison (P : program) (o : cmpop) (left_type right_type : cid) : ctarget :=
  let x := member_id (compare_func o) in
  match get_function (classes P) left_type x with
  | Some _ => get_function_call P false left_type x
  | None =>
    match o, get_function (classes P) left_type (member_id "__eq__") with
    | NotEq, Some _ => get_function_call P true left_type (member_id "__eq__")
    | _, _ => CRejected
    end
  end.

(** resources/bool.sil:470-488 domain __ObjectEquality *)
Definition object_equality_axioms {Ref : Type} (null : Ref) (object_eq : Ref -> Ref -> Prop) : Prop :=
  (forall o1 o2 o3, object_eq o1 o2 /\ object_eq o2 o3 -> object_eq o1 o3) /\
  (forall o1 o2, (object_eq o1 o2 <-> object_eq o2 o1) /\
                 (o1 = o2 -> object_eq o1 o2) /\
                 (~ (o1 = null <-> o2 = null) -> ~ object_eq o1 o2)).
