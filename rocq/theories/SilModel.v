(** Model of Nagini's Viper expression builders.

    Sources (below /repo/src/nagini_translation/lib):
    - silver_nodes/bool_expr.py (33-301), silver_nodes/int_expr.py (33-190),
      silver_nodes/int_cmp_expr.py (21-104)
    - util.py: join_expressions, join_three_expressions (287-312)

    Builder objects are [iexp] and [bexp]; [itrans]/[btrans] model their
    [translate] methods, which yield Viper expressions [viexp]/[vbexp].
    Python sub-expressions ([PythonIntExpression], [PythonBoolExpression],
    [BoolVar], [BoolCall], [ForPerm], ...) are opaque: their translation is a
    variable of the Viper expression. Positions and infos are dropped. *)
From Coq Require Import List ZArith Bool.
Import ListNotations.
Open Scope Z_scope.

(** Viper expressions (the constructors of lib/viper_ast.py used here). *)
Inductive viexp :=
| VIntLit (z : Z)
| VIntAtom (x : nat)
| VAdd (a b : viexp)
| VSub (a b : viexp)
| VICond (c : vbexp) (a b : viexp)
with vbexp :=
| VTrueLit
| VFalseLit
| VBoolAtom (x : nat)
| VNot (a : vbexp)
| VAnd (a b : vbexp)
| VOr (a b : vbexp)
| VImplies (a b : vbexp)
| VBCond (c a b : vbexp)
| VInhaleExhale (i e : vbexp)
| VGt (a b : viexp)
| VGe (a b : viexp)
| VLt (a b : viexp)
| VLe (a b : viexp)
| VIEq (a b : viexp)
| VINe (a b : viexp)
| VBEq (a b : vbexp)
| VBNe (a b : vbexp).

(** Builder objects. [PyNum z] is a [PythonIntExpression] whose node is a number
    literal, [PyInt x] one with any other node. [CondInc] stores the already
    increased value, as its constructor does (int_expr.py:185-189). *)
Inductive iexp :=
| PyNum (z : Z)
| PyInt (x : nat)
| RawInt (z : Z)
| Add (a b : iexp)
| Sub (a b : iexp)
| Sum (es : list iexp)
| Inc (a : iexp)
| CondInc_ (c : bexp) (value increased : iexp)
with bexp :=
| TrueLit
| FalseLit
| Not (a : bexp)
| PyBool (x : nat)
| InhaleExhale (i e : bexp)
| BigAnd (es : list bexp)
| BigOr (es : list bexp)
| BoolCondExp (c a b : bexp)
| Implies (c v : bexp)
| GtCmp (a b : iexp)
| GeCmp (a b : iexp)
| LtCmp (a b : iexp)
| LeCmp (a b : iexp)
| IEqCmp (a b : iexp)
| INeCmp (a b : iexp)
| BEqCmp (a b : bexp)
| BNeCmp (a b : bexp).

(** The second operand of a Python operator applied to a builder object: a plain
    Python int or another builder object. *)
Inductive operand := PInt (z : Z) | Node (e : iexp).

(** int_expr.py:33-38. *)
Definition auto_box (o : operand) : iexp :=
  match o with PInt z => RawInt z | Node e => e end.

(** int_expr.py:63-64 and the override at 101-104. *)
Definition py_add (a : iexp) (o : operand) : iexp :=
  match a, o with
  | RawInt v, PInt z => RawInt (v + z)
  | RawInt _, Node e => Add a e
  | _, _ => Add a (auto_box o)
  end.

(** int_expr.py:66-67 and 106-109. *)
Definition py_sub (a : iexp) (o : operand) : iexp :=
  match a, o with
  | RawInt v, PInt z => RawInt (v - z)
  | RawInt _, Node e => Sub a e
  | _, _ => Sub a (auto_box o)
  end.

(** int_expr.py:51-61. *)
Definition py_gt (a : iexp) (o : operand) : bexp := GtCmp a (auto_box o).
Definition py_ge (a : iexp) (o : operand) : bexp := GeCmp a (auto_box o).
Definition py_lt (a : iexp) (o : operand) : bexp := LtCmp a (auto_box o).
Definition py_le (a : iexp) (o : operand) : bexp := LeCmp a (auto_box o).

(** int_expr.py:182-205. *)
Definition CondInc (c : bexp) (value : iexp) : iexp :=
  CondInc_ c value (py_add value (PInt 1)).

(** int_expr.py:44-49 (default), 76-80, 98-99. *)
Definition get_value (e : iexp) : option Z :=
  match e with
  | PyNum z => Some z
  | RawInt z => Some z
  | _ => None
  end.

(** int_cmp_expr.py:41-50. *)
Definition cmp_true (cmp : Z -> Z -> bool) (a b : iexp) : bool :=
  match get_value a with
  | None => false
  | Some l => match get_value b with None => false | Some r => cmp l r end
  end.

(** int_cmp_expr.py:52-60. *)
Definition cmp_false (cmp : Z -> Z -> bool) (a b : iexp) : bool :=
  match get_value a with
  | None => false
  | Some l => match get_value b with None => false | Some r => negb (cmp l r) end
  end.

(** [is_always_false]: bool_expr.py:40-42 (default), 60-62, 207-208;
    int_cmp_expr.py:52-60. It never looks at children except through [Implies]. *)
Definition is_always_false (e : bexp) : bool :=
  match e with
  | FalseLit => true
  | BigOr es => match es with [] => true | _ => false end
  | GtCmp a b => cmp_false Z.gtb a b
  | GeCmp a b => cmp_false Z.geb a b
  | LtCmp a b => cmp_false Z.ltb a b
  | LeCmp a b => cmp_false Z.leb a b
  | _ => false
  end.

(** [is_always_true]: bool_expr.py:36-38 (default), 48-50, 174-175, 252-254;
    int_cmp_expr.py:41-50. *)
Fixpoint is_always_true (e : bexp) : bool :=
  match e with
  | TrueLit => true
  | BigAnd es => match es with [] => true | _ => false end
  | Implies c v => is_always_false c || is_always_true v
  | GtCmp a b => cmp_true Z.gtb a b
  | GeCmp a b => cmp_true Z.geb a b
  | LtCmp a b => cmp_true Z.ltb a b
  | LeCmp a b => cmp_true Z.leb a b
  | _ => false
  end.

(** util.py:287-312. [first = expressions[-1]] raises IndexError on an empty
    list, modelled by [None]. [result] starts as the last element and the loop
    walks backwards over the others, building [operator(part, result)]. *)
Definition join_expressions {T : Type} (operator : T -> T -> T) (expressions : list T)
  : option T :=
  match rev expressions with
  | [] => None
  | last :: before => Some (fold_left (fun result part => operator part result) before last)
  end.

(** [translate] methods. Python lists are translated element by element; the
    filters are the ones of BigAnd/BigOr (bool_expr.py:177-191, 210-224); the guards
    `if self.is_always_false()` (179) and `if self.is_always_true()` (212) use the
    inherited defaults and never fire. Implies: 256-265; integer nodes:
    int_expr.py:111-205; comparisons: int_cmp_expr.py:62-104. *)
Fixpoint itrans (e : iexp) : viexp :=
  match e with
  | PyNum z => VIntLit z
  | PyInt x => VIntAtom x
  | RawInt z => VIntLit z
  | Add a b => VAdd (itrans a) (itrans b)
  | Sub a b => VSub (itrans a) (itrans b)
  | Sum es =>
      match join_expressions VAdd (map itrans es) with
      | None => VIntLit 0
      | Some v => v
      end
  | Inc a => VAdd (itrans a) (VIntLit 1)
  | CondInc_ c v i => VICond (btrans c) (itrans i) (itrans v)
  end
with btrans (e : bexp) : vbexp :=
  match e with
  | TrueLit => VTrueLit
  | FalseLit => VFalseLit
  | Not a => VNot (btrans a)
  | PyBool x => VBoolAtom x
  | InhaleExhale i x => VInhaleExhale (btrans i) (btrans x)
  | BigAnd es =>
      match join_expressions VAnd
              ((fix go (l : list bexp) : list vbexp :=
                  match l with
                  | [] => []
                  | x :: l' => if is_always_true x then go l' else btrans x :: go l'
                  end) es) with
      | None => VTrueLit
      | Some v => v
      end
  | BigOr es =>
      match join_expressions VOr
              ((fix go (l : list bexp) : list vbexp :=
                  match l with
                  | [] => []
                  | x :: l' => if is_always_false x then go l' else btrans x :: go l'
                  end) es) with
      | None => VFalseLit
      | Some v => v
      end
  | BoolCondExp c a b => VBCond (btrans c) (btrans a) (btrans b)
  | Implies c v => if is_always_true c then btrans v else VImplies (btrans c) (btrans v)
  | GtCmp a b => VGt (itrans a) (itrans b)
  | GeCmp a b => VGe (itrans a) (itrans b)
  | LtCmp a b => VLt (itrans a) (itrans b)
  | LeCmp a b => VLe (itrans a) (itrans b)
  | IEqCmp a b => VIEq (itrans a) (itrans b)
  | INeCmp a b => VINe (itrans a) (itrans b)
  | BEqCmp a b => VBEq (btrans a) (btrans b)
  | BNeCmp a b => VBNe (btrans a) (btrans b)
  end.
