(** Model of IntEnum classes: the functions generated for them (translators/program.py
    120-172, 1196-1287, 1350-1361, 1382-1384), constructor calls
    (translators/call.py 212-224), the conversion to int (translators/common.py
    190-219) and comparisons (translators/expression.py 1480-1550).

    The generated Viper functions are abstract: their postconditions are assumptions of
    the verifier. A declaration of such a function is a [decl], and [holds] says what it
    assumes about an interpretation of the functions. Names are strings; class names get
    their Viper names from the table of C02 (lib/program_nodes.py 82-93, 201-211).
    Left out: members whose value is not an integer literal, positions, termination
    measures and triggers. *)
From Coq Require Import Bool Arith ZArith List.
From Verif Require Import NamesModel.
Import ListNotations.
Local Open Scope Z_scope.

(** class Name(IntEnum): m1 = v1 ... (analyzer.py 1467-1482) *)
Record enum := { en_name : pystring; en_members : list (pystring * Z) }.

(** The Viper names of the classes, in the order in which they are processed. *)
Definition sil_names (tbl : list pystring) (es : list enum) : option (list pystring) :=
  match requests pystring pystring_eqb py_suffix (map (fun e => (Owner, en_name e)) es) tbl with
  | Some (out, _) => Some out
  | None => None
  end.

Inductive decl :=
(** the box function named [f], for class [c], with the values its precondition allows
    (1209-1249) *)
| DBox (f : pystring) (vals : list Z) (c : pystring)
(** the unbox function of class [c] (1251-1287) *)
| DInt (c : pystring) (vals : list Z)
(** the function of the static field [m] of class [c], whose value is [v] boxed by the
    function named [f] (120-172) *)
| DStatic (c m f : pystring) (v : Z).

(** 1229-1236, 1260-1267 *)
Definition values (e : enum) : list Z := map snd (en_members e).

(** 1209-1287, 1216-1217: the box function is named after the Viper name. *)
Definition box_functions (e : enum) (sil : pystring) : list decl := [DBox sil (values e) sil; DInt sil (values e)].
(** 151-153: the static fields call the function named after the Python name. *)
Definition static_functions (e : enum) (sil : pystring) : list decl :=
  map (fun mv => DStatic sil (fst mv) (en_name e) (snd mv)) (en_members e).
Definition generate_with (es : list enum) (sils : list pystring) : list decl :=
  flat_map (fun es => box_functions (fst es) (snd es)) (combine es sils) ++
  flat_map (fun es => static_functions (fst es) (snd es)) (combine es sils).
Definition generate (tbl : list pystring) (es : list enum) : option (list decl) :=
  option_map (generate_with es) (sil_names tbl es).

(** ** What the verifier knows *)
Inductive ty := TInt | TBool | TEnum (c : pystring) | TOther (n : nat).
(** Subtypes of int (resources/builtins.json 1146-1148). *)
Definition int_like (t : ty) : bool := match t with TOther _ => false | _ => true end.

(** An interpretation of the functions. *)
Record interp := {
  R : Type;
  typeof : R -> ty;
  int_box : Z -> R;                           (* __prim__int___box__ *)
  int_unbox : R -> Z;                         (* int___unbox__ *)
  bool_box : bool -> R;                       (* __prim__bool___box__ *)
  object_eq : R -> R -> Prop;                 (* object___eq__ *)
  int_eq : R -> R -> Prop;                    (* int___eq__ *)
  enum_box : pystring -> Z -> R;              (* f__box__ *)
  enum_int : pystring -> R -> Z;              (* c__int__ *)
  static : pystring -> pystring -> R          (* the static field m of class c *)
}.

(** resources/bool.sil 298-328, 470-488 *)
Definition background (I : interp) : Prop :=
  (forall z, typeof I (int_box I z) = TInt /\ int_unbox I (int_box I z) = z) /\
  (forall b, typeof I (bool_box I b) = TBool /\ int_unbox I (bool_box I b) = if b then 1 else 0) /\
  (forall r, typeof I r = TInt -> int_box I (int_unbox I r) = r) /\
  (forall r, typeof I r = TBool -> bool_box I (negb (int_unbox I r =? 0)) = r) /\
  (forall r i, int_like (typeof I r) = true -> int_like (typeof I i) = true -> object_eq I r i ->
               int_unbox I i = int_unbox I r) /\
  (forall l r, int_like (typeof I l) = true -> int_like (typeof I r) = true ->
               (int_eq I l r <-> int_unbox I l = int_unbox I r) /\ (int_eq I l r <-> object_eq I l r)) /\
  (forall r, object_eq I r r) /\ (forall l r, object_eq I l r -> object_eq I r l) /\
  (forall a b c, object_eq I a b -> object_eq I b c -> object_eq I a c).

Definition holds (I : interp) (d : decl) : Prop :=
  match d with
  | DBox f vals c => forall v, In v vals ->
      typeof I (enum_box I f v) = TEnum c /\                     (* 1239 *)
      enum_int I c (enum_box I f v) = v /\                       (* 1241-1242 *)
      int_unbox I (enum_box I f v) = v                           (* 1243-1244 *)
  | DInt c vals => forall r, typeof I r = TEnum c ->             (* 1257 *)
      In (enum_int I c r) vals /\                                (* 1260-1267 *)
      forall i, object_eq I r i -> typeof I i = TEnum c -> enum_int I c i = enum_int I c r   (* 1269-1281 *)
  | DStatic c m f v =>
      typeof I (static I c m) = TEnum c /\                       (* 143-144 *)
      static I c m = enum_box I f v                              (* 160-167 *)
  end.

(** The postcondition of a static field is well-defined: the box function exists and
    its precondition holds. *)
Definition accepted (ds : list decl) : Prop :=
  forall c m f v, In (DStatic c m f v) ds -> exists vals c', In (DBox f vals c') ds /\ In v vals.

(** ** Expressions *)
(** C(v) (call.py 212-224): the precondition and the value. *)
Definition cons_ok (ds : list decl) (sil : pystring) (v : Z) : Prop :=
  exists vals c, In (DBox sil vals c) ds /\ In v vals.
Definition cons_value (I : interp) (sil : pystring) (v : Z) : R I := enum_box I sil v.

(** Static type of an operand. *)
Inductive sty := SInt | SEnum (c : pystring).
Inductive cmp := Is | IsNot | Eq | NotEq | Lt | LtE | Gt | GtE.

(** common.py 190-219 *)
Definition to_int (I : interp) (t : sty) (r : R I) : Z :=
  match t with SEnum c => enum_int I c r | SInt => int_unbox I r end.
(** expression.py 1491-1497: an enum operand becomes an Int, and is boxed again as an
    int when it is passed on (common.py 136-144). *)
Definition operand (I : interp) (t : sty) (r : R I) : R I :=
  match t with SEnum _ => int_box I (to_int I t r) | SInt => r end.
(** 1480-1537, with int___eq__, int___lt__ ... on references. *)
Definition compare (I : interp) (op : cmp) (lt : sty) (l : R I) (rt : sty) (r : R I) : Prop :=
  match op with
  | Is => l = r
  | IsNot => l <> r
  | _ =>
      let l' := operand I lt l in
      let r' := operand I rt r in
      match op with
      | Eq => int_eq I l' r'
      | NotEq => ~ int_eq I l' r'
      | Lt => int_unbox I l' < int_unbox I r'
      | LtE => int_unbox I l' <= int_unbox I r'
      | Gt => int_unbox I l' > int_unbox I r'
      | _ => int_unbox I l' >= int_unbox I r'
      end
  end.
(** [x in [..]]: 1504-1506, 1539-1550; resources/list.sil 19-23 (item in self.list_acc). *)
Definition contains (I : interp) (t : sty) (x : R I) (contents : list (R I)) : Prop := In (operand I t x) contents.
(** x + n (resources/bool.sil 379-383): the arguments are unboxed as integers. *)
Definition add (I : interp) (x : R I) (n : Z) : Z := int_unbox I x + n.
