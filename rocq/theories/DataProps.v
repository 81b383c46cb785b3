(** C54: constructing an object of a dataclass. *)
From Coq Require Import Bool Arith List Lia.
From Verif Require Import DataModel DataSpec DataProofs.
Import ListNotations.

(** @dataclass class 5: x(1): int; y(2): int = 7; z(3): list = field(default_factory=list),
    and a method that reads x and z. Class 6 is a plain subclass of 5. *)
Definition demo_class : cls :=
  {| c_name := 5; c_base := None; c_data := true; c_frozen := false;
     c_members := [MField 1 None; MField 2 (Some (DConst 7)); MField 3 (Some DFactory); MMethod KOther [Acc 5 3; Acc 5 1]] |}.
Definition demo_sub : cls := {| c_name := 6; c_base := Some 5; c_data := false; c_frozen := false; c_members := [] |}.
Definition demo : list item := [IFunc [Acc 9 1]; IClass demo_class; IClass demo_sub; IFunc [Acc 5 2]].

(** The parameters of the generated constructor are the attributes of the class that
    are mentioned anywhere up to the end of the class, in the order of their first
    mention; the constructor returns access to all of them, unless the class is frozen. *)
Theorem C54_params_exact : forall p c k,
  NoDup (class_names p) -> find_class p c = Some k -> c_data k = true -> explicit_init k = false ->
  exists ct, find_ctor (ctors p) c = Some ct /\
    map p_name (k_params ct) = first_occurrences [] (mentions p c) /\
    k_acc ct = if c_frozen k then [] else first_occurrences [] (mentions p c).
Proof. exact c54_params_exact. Qed.
Print Assumptions C54_params_exact.
Example C54_params_ex : NoDup (class_names demo) /\ find_class demo 5 = Some demo_class /\
  first_occurrences [] (mentions demo 5) = [1; 2; 3].
Proof. split; [repeat constructor; cbn; intuition discriminate|]. split; reflexivity. Qed.

(** The attributes of a new object are the ones Python gives it, if the dataclass whose
    constructor is used has no inherited fields, and declares its fields with
    annotations and above every mention of them. *)
Theorem C54_construct_partial : forall p c pos kws o j k,
  NoDup (class_names p) -> py_init (length p) p c = Some (OImplicit k) -> find_class p k = Some j ->
  tidy p j -> defaults_last (py_fields (length p) p k) ->
  py_construct p c pos kws o -> construct p c pos kws = Some o.
Proof. exact c54_construct_partial. Qed.
Print Assumptions C54_construct_partial.
(** 6(10, z=11) and 6(x=12). *)
Example C54_construct_ex :
  py_init (length demo) demo 6 = Some (OImplicit 5) /\ tidy demo demo_class /\
  defaults_last (py_fields (length demo) demo 5) /\
  py_construct demo 6 [10] [(3, 11)] [(1, SArg 10); (2, SDefault 7); (3, SArg 11)] /\
  py_construct demo 6 [] [(1, 12)] [(1, SArg 12); (2, SDefault 7); (3, SFresh)].
Proof.
  split; [reflexivity|]. split.
  { split; [reflexivity|]. split.
    { cbn. repeat split; try (intuition discriminate). }
    split; [cbn; auto|exact I]. }
  split; [cbn; repeat constructor; discriminate|].
  split; exists 5; (split; [reflexivity|]); (split; [cbn; lia|]); (split; [repeat constructor; cbn; intuition discriminate|]);
    (split; [cbn; intuition congruence|]); (split; [reflexivity|]);
    intros [|[|[|i]]] f s H1 H2; cbn in H1, H2; try discriminate;
    try (injection H1 as <-; injection H2 as <-; reflexivity); destruct i; discriminate.
Qed.

(** __post_init__ is called as in Python for a class that is itself a dataclass with a
    generated constructor. *)
Theorem C54_post_init_partial : forall p c k,
  find_class p c = Some k -> c_data k = true -> explicit_init k = false -> post_init p c = py_post_init p c.
Proof. exact c54_post_init_partial. Qed.
Print Assumptions C54_post_init_partial.
Example C54_post_init_ex : exists p c k, find_class p c = Some k /\ c_data k = true /\ explicit_init k = false /\
  py_post_init p c = Some 4.
Proof.
  exists [IClass {| c_name := 4; c_base := None; c_data := true; c_frozen := true;
                    c_members := [MField 1 None; MMethod KPostInit []] |};
          IClass {| c_name := 5; c_base := Some 4; c_data := true; c_frozen := true; c_members := [] |}], 5.
  eexists. repeat split; reflexivity.
Qed.

(** ** Where the constructor differs from Python's *)

(** Above the class: def f(d: D) -> int: return d.b
    @dataclass class D: a: int; b: int
    D(10, 11) has a = 10 in Python; the constructor assumes a = 11. *)
Theorem C54_order_refuted : exists p c pos o o',
  NoDup (class_names p) /\ defaults_last (py_fields (length p) p c) /\
  py_construct p c pos [] o /\ construct p c pos [] = Some o' /\
  In (1, SArg 10) o /\ In (1, SArg 11) o'.
Proof.
  exists [IFunc [Acc 5 2];
          IClass {| c_name := 5; c_base := None; c_data := true; c_frozen := false; c_members := [MField 1 None; MField 2 None] |}],
    5, [10; 11], [(1, SArg 10); (2, SArg 11)], [(2, SArg 10); (1, SArg 11)].
  split; [repeat constructor; cbn; intuition discriminate|]. split; [exact I|]. split.
  { exists 5. split; [reflexivity|]. split; [cbn; lia|]. split; [constructor|]. split; [intros x v []|]. split; [reflexivity|].
    intros [|[|i]] f s H1 H2; cbn in H1, H2; try discriminate; try (injection H1 as <-; injection H2 as <-; reflexivity).
    destruct i; discriminate. }
  split; [reflexivity|]. split; [left; reflexivity|right; left; reflexivity].
Qed.
Print Assumptions C54_order_refuted.

(** @dataclass class A: x: int          @dataclass class D(A): y: int
    D(10, 11) has y = 11 in Python; the generated constructor takes y only, drops the
    second argument and assumes y = 10. *)
Theorem C54_inherited_refuted : exists p c pos o o',
  NoDup (class_names p) /\ defaults_last (py_fields (length p) p c) /\
  py_construct p c pos [] o /\ construct p c pos [] = Some o' /\
  In (2, SArg 11) o /\ o' = [(2, SArg 10)].
Proof.
  exists [IClass {| c_name := 4; c_base := None; c_data := true; c_frozen := false; c_members := [MField 1 None] |};
          IClass {| c_name := 5; c_base := Some 4; c_data := true; c_frozen := false; c_members := [MField 2 None] |}],
    5, [10; 11], [(1, SArg 10); (2, SArg 11)], [(2, SArg 10)].
  split; [repeat constructor; cbn; intuition discriminate|]. split; [exact I|]. split.
  { exists 5. split; [reflexivity|]. split; [cbn; lia|]. split; [constructor|]. split; [intros x v []|]. split; [reflexivity|].
    intros [|[|i]] f s H1 H2; cbn in H1, H2; try discriminate; try (injection H1 as <-; injection H2 as <-; reflexivity).
    destruct i; discriminate. }
  split; [reflexivity|]. split; [right; left; reflexivity|reflexivity].
Qed.
Print Assumptions C54_inherited_refuted.

(** @dataclass class B: k = 3; n: int
    In Python k is no field, and B(10) has n = 10. Here k is the first parameter, the
    default 3 goes to the last one, and B(10) is assumed to have k = 10 and n = 3. *)
Theorem C54_unannotated_refuted : exists p c pos o o',
  NoDup (class_names p) /\ defaults_last (py_fields (length p) p c) /\
  py_construct p c pos [] o /\ construct p c pos [] = Some o' /\
  o = [(2, SArg 10)] /\ o' = [(1, SArg 10); (2, SDefault 3)].
Proof.
  exists [IClass {| c_name := 5; c_base := None; c_data := true; c_frozen := false; c_members := [MPlain 1 3; MField 2 None] |}],
    5, [10], [(2, SArg 10)], [(1, SArg 10); (2, SDefault 3)].
  split; [repeat constructor; cbn; intuition discriminate|]. split; [exact I|]. split.
  { exists 5. split; [reflexivity|]. split; [cbn; lia|]. split; [constructor|]. split; [intros x v []|]. split; [reflexivity|].
    intros [|i] f s H1 H2; cbn in H1, H2; try discriminate; try (injection H1 as <-; injection H2 as <-; reflexivity).
    destruct i; discriminate. }
  repeat split.
Qed.
Print Assumptions C54_unannotated_refuted.

(** @dataclass(frozen=True) class A: x: int = 3; @property def p(self) -> int: return ...
    The property becomes a parameter and takes the default of x: after A(10) the
    verifier assumes that the property p of the object is 3, whatever its body says. *)
Theorem C54_property_refuted : exists p c pos o o' x k,
  NoDup (class_names p) /\ find_class p c = Some k /\ In (MProperty x []) (c_members k) /\
  py_construct p c pos [] o /\ ~ In x (map fst o) /\ construct p c pos [] = Some o' /\ In (x, SDefault 3) o'.
Proof.
  exists [IClass {| c_name := 5; c_base := None; c_data := true; c_frozen := true; c_members := [MField 1 (Some (DConst 3)); MProperty 2 []] |}],
    5, [10], [(1, SArg 10)], [(1, SArg 10); (2, SDefault 3)], 2. eexists.
  split; [repeat constructor; cbn; intuition discriminate|]. split; [reflexivity|]. split; [right; left; reflexivity|]. split.
  { exists 5. split; [reflexivity|]. split; [cbn; lia|]. split; [constructor|]. split; [intros x v []|]. split; [reflexivity|].
    intros [|i] f s H1 H2; cbn in H1, H2; try discriminate; try (injection H1 as <-; injection H2 as <-; reflexivity).
    destruct i; discriminate. }
  split; [cbn; intuition discriminate|]. split; [reflexivity|]. right. left. reflexivity.
Qed.
Print Assumptions C54_property_refuted.

(** A plain subclass of a dataclass with __post_init__: Python runs it when an object of
    the subclass is constructed, here its precondition is not checked. *)
Theorem C54_post_init_refuted : exists p c, NoDup (class_names p) /\ py_post_init p c = Some 4 /\ post_init p c = None.
Proof.
  exists [IClass {| c_name := 4; c_base := None; c_data := true; c_frozen := false; c_members := [MField 1 None; MMethod KPostInit []] |};
          IClass {| c_name := 5; c_base := Some 4; c_data := false; c_frozen := false; c_members := [] |}], 5.
  split; [repeat constructor; cbn; intuition discriminate|]. split; reflexivity.
Qed.
Print Assumptions C54_post_init_refuted.
