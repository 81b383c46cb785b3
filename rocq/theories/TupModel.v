(** Model of the types of tuples: resources/tuple.sil (domain tuple_types),
    type_domain_factory.py (type_check, translate_type_literal), type.py (type_check),
    program_nodes.py (GenericType.substitute), call.py (starred arguments).

    Simplifications: type arguments of classes are class types; no type variables in
    annotations (but see [substitute]); no enumerations; the type [type] is not modelled. *)
From Coq Require Import List Arith ZArith Bool.
From Verif Require Import ClsModel ClsSpec TupSpec.
Import ListNotations.

(** The functions for tuple types (pytype.sil 18-21; tuple.sil 208-211). [outside]: s[i] for
    an index that is out of range, which Viper leaves open. *)
Record tuples (I : interp) := {
  tuple : list (PyType I) -> PyType I;
  tuple_var : PyType I -> PyType I;
  tuple_args : PyType I -> list (PyType I);
  tuple_arg : PyType I -> Z -> PyType I;
  tuple_basic : PyType I;
  outside : list (PyType I) -> Z -> PyType I }.
Arguments tuple {I}. Arguments tuple_var {I}. Arguments tuple_args {I}. Arguments tuple_arg {I}.
Arguments tuple_basic {I}. Arguments outside {I}.

Section Axioms.
  Variable I : interp.
  Variable T : tuples I.
  Notation sub a b := (subtype I a b = true).
  Definition at_ (s : list (PyType I)) (i : Z) : PyType I :=
    if (0 <=? i)%Z then nth (Z.to_nat i) s (outside T s i) else outside T s i.
  Definition in_range (s : list (PyType I)) (i : Z) : Prop := (0 <= i < Z.of_nat (length s))%Z.
  Definition object_t : PyType I := cls_type I object_id [].

  (** tuple_basic is declared unique (type_domain_factory.py 321-342). *)
  Definition ax_tuple_unique (n : nat) (tb : table) : Prop :=
    forall u, declared_uniq n tb u -> uniq_value I u <> tuple_basic T.
  (** tuple.sil 213-217 *)
  Definition ax_arg_def : Prop := forall seq i Z, sub Z (tuple T seq) -> sub (tuple_arg T Z i) (at_ seq i).
  (** 219-223 *)
  Definition ax_arg_def_2 : Prop := forall arg0 i Z, sub Z (tuple_var T arg0) -> sub (tuple_arg T Z i) arg0.
  (** 225-229 *)
  Definition ax_args_def : Prop := forall seq Z, sub Z (tuple T seq) -> length (tuple_args T Z) = length seq.
  (** 231-238 *)
  Definition ax_self_subtype : Prop := forall seq1 seq2,
    seq1 <> seq2 -> length seq1 = length seq2 ->
    (forall i, in_range seq1 i -> sub (at_ seq1 i) (at_ seq2 i)) -> sub (tuple T seq1) (tuple T seq2).
  (** 240-245 *)
  Definition ax_subtype_tuple : Prop := forall args,
    (forall e, In e args -> e = object_t) -> extends_ I (tuple T args) object_t = true.
  (** 247-251 *)
  Definition ax_subtype_tuple_var : Prop := forall var0, sub (tuple_var T var0) object_t.
  (** 253-258 *)
  Definition ax_var_self : Prop := forall var0 var1, sub (tuple_var T var0) (tuple_var T var1) <-> sub var0 var1.
  (** 260-265 *)
  Definition ax_var_tuple : Prop := forall var0 var1,
    sub (tuple T var1) (tuple_var T var0) <-> (forall i, in_range var1 i -> sub (at_ var1 i) var0).
  (** 267-272 *)
  Definition ax_args_subtype_1 : Prop := forall seq Z, sub Z (tuple T seq) -> sub Z (tuple T (tuple_args T Z)).
  (** 274-279 *)
  Definition ax_args_subtype_2 : Prop := forall Z arg0, sub Z (tuple_var T arg0) -> sub Z (tuple T (tuple_args T Z)).
  (** 281-286, 288-293 *)
  Definition basic_or_top (t : PyType I) : Prop :=
    get_basic I t = tuple_basic T \/ get_basic I t = object_t \/ get_basic I t = union_basic I.
  Definition ax_type_basic_1 : Prop := forall seq Z arg1, sub Z (tuple T seq) -> sub Z arg1 -> basic_or_top arg1.
  Definition ax_type_basic_2 : Prop := forall arg0 arg1 Z, sub Z (tuple_var T arg0) -> sub Z arg1 -> basic_or_top arg1.

  (** All axioms but the two that are singled out below. *)
  Definition common_axioms (n : nat) (tb : table) : Prop :=
    ax_tuple_unique n tb /\ ax_arg_def /\ ax_args_def /\ ax_self_subtype /\ ax_subtype_tuple /\
    ax_subtype_tuple_var /\ ax_var_self /\ ax_var_tuple /\ ax_args_subtype_1 /\ ax_type_basic_1 /\ ax_type_basic_2.
  Definition tuple_axioms (n : nat) (tb : table) : Prop :=
    common_axioms n tb /\ ax_arg_def_2 /\ ax_args_subtype_2.

  (** Weaker versions: only for elements that exist, only for types of a fixed length; the
      axiom about unions (type_domain_factory.py 131-175) only for types other than object. *)
  Definition ax_arg_def_2_weak : Prop := forall arg0 i Z, in_range (tuple_args T Z) i ->
    sub Z (tuple_var T arg0) -> sub (tuple_arg T Z i) arg0.
  Definition ax_args_subtype_2_weak : Prop := forall seq arg0,
    sub (tuple T seq) (tuple_var T arg0) -> sub (tuple T seq) (tuple T (tuple_args T (tuple T seq))).
  Definition ax_union_subtype_weak : Prop := forall args X, 1 <= length args <= 4 ->
    get_basic I X <> union_basic I -> X <> object_t ->
    subtype I X (union_type I args) = fold_left (fun acc a => acc || subtype I X a) args false.
  Definition weak_axioms (n : nat) (tb : table) : Prop :=
    class_axioms n tb I /\ common_axioms n tb /\ ax_arg_def_2_weak /\ ax_args_subtype_2_weak /\ ax_union_subtype_weak.

  (** What is known of a reference that stands for a value: the type of an object
      (constructors), null for None (null_type axiom), and for tuples the postconditions of
      tuple___createN__ (tuple.sil 11-147) and of tuple___getitem__ (157-165). *)
  Inductive stands_for : Ref I -> val -> Prop :=
  | sf_obj r t : typeof I r = denote I t -> stands_for r (VObj t)
  | sf_none : stands_for (null I) VNone
  | sf_tuple r rs vs :
      r <> null I -> typeof I r = tuple T (map (typeof I) rs) ->
      (forall i x, nth_error rs i = Some x -> sub (typeof I x) (tuple_arg T (typeof I r) (Z.of_nat i))) ->
      Forall2 stands_for rs vs -> stands_for r (VTuple vs).
End Axioms.

(** The class of a type (python_class): a class of the table, or tuple, which is not in the
    table; UnionType.cls (program_nodes.py 939-953), OptionalType.cls (990-992). The common
    superclass of tuple and another class is object (builtins.json 713-791). *)
Inductive pclass := PTuple | PClass (c : cid).
Definition common (tb : table) (a b : pclass) : option pclass :=
  match a, b with
  | PTuple, PTuple => Some PTuple
  | PClass c, PClass d => option_map PClass (get_common_superclass tb c d)
  | _, _ => Some (PClass object_id)
  end.
Fixpoint python_class (tb : table) (a : ann) : option pclass :=
  match a with
  | AObj (TApp c _) => Some (PClass c)
  | AObj (TVar _) => None
  | ANone => None                          (* None is skipped in unions (942-948) *)
  | ATuple _ | ATupleVar _ => Some PTuple
  | AUnion l =>
      fold_left (fun acc a =>
        match python_class tb a, acc with
        | None, _ => acc
        | Some c, None => Some c
        | Some c, Some d => common tb d c
        end) l None
  | AOpt a => python_class tb a
  end.
Definition is_tuple (tb : table) (a : ann) : bool :=
  match python_class tb a with Some PTuple => true | _ => false end.

Section Checks.
  Variable tb : table.
  Variable I : interp.
  Variable T : tuples I.

  (** translate_type_literal (type_domain_factory.py 838-890). None: the result is not
      well-typed Viper, because union_type_1 is applied to a sequence of types, or
      because union_type_n is not declared (n > UNION_TYPE_SIZE, 29, 77-93). *)
  Definition union_literal (tuple_class : bool) (args : list (PyType I)) : option (PyType I) :=
    if tuple_class then None                                                 (* 866-880: args = [ExplicitSeq(args)] *)
    else if (length args <=? 4) then Some (union_type I args) else None.     (* 881-882 *)
  Fixpoint literal (a : ann) : option (PyType I) :=
    let fix literals (l : list ann) : option (list (PyType I)) :=
      match l with
      | [] => Some []
      | a :: l => match literal a, literals l with Some x, Some xs => Some (x :: xs) | _, _ => None end
      end in
    match a with
    | AObj t => Some (denote I t)
    | ANone => Some (cls_type I none_id [])                                  (* 856-857 *)
    | ATuple l => option_map (tuple T) (literals l)                          (* 859-861, 876-880 *)
    | ATupleVar a => option_map (tuple_var T) (literal a)                    (* 867-868, 883-884 *)
    | AUnion l =>
        match literals l with Some xs => union_literal (is_tuple tb (AUnion l)) xs | None => None end
    | AOpt a =>                                                              (* type_args = [None, typ] *)
        match literal a with
        | Some x => union_literal (is_tuple tb a) [cls_type I none_id []; x]
        | None => None
        end
    end.

  (** type_check (type.py 82-103, type_domain_factory.py 814-836); None as above. *)
  Definition type_check (r : Ref I) (a : ann) : option Prop :=
    match a with
    | AOpt b =>                                                              (* 823-831 *)
        option_map (fun x => r = null I \/ subtype I (typeof I r) x = true) (literal b)
    | _ => option_map (fun x => subtype I (typeof I r) x = true) (literal a) (* 835-836 *)
    end.
End Checks.

(** GenericType.substitute (program_nodes.py 801-802), TypeVar.substitute (381-384): the new
    GenericType has exact_length = True (794). *)
Fixpoint substitute (types : nat -> option gtype) (t : gtype) : gtype :=
  match t with
  | GVar i => match types i with Some u => u | None => t end
  | GClass c => GClass c
  | GTuple args _ => GTuple (map (substitute types) args) true
  end.
(** contains_type_var (program_nodes.py 378-379, 804-805) *)
Fixpoint contains_type_var (t : gtype) : bool :=
  match t with GVar _ => true | GClass _ => false | GTuple args _ => existsb contains_type_var args end.
(** The type of a field or of the result of a method of a generic object (resolver.py
    226-245). *)
Definition member_type (types : nat -> option gtype) (t : gtype) : gtype :=
  if contains_type_var t then substitute types t else t.
(** Number of arguments that a starred tuple stands for (call.py 873-897); None: the program
    is rejected. *)
Definition starred (t : gtype) : option nat :=
  match t with GTuple args true => Some (length args) | _ => None end.
