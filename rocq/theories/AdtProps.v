(** Properties C50 (laws of algebraic data types) and C51 (declaring
    algebraic data types is consistent). *)
From Coq Require Import List String Ascii NArith ZArith Bool Lia.
From Verif Require Import AdtModel AdtSpec AdtProofs AdtUseProofs AdtConsProofs AdtNamesProofs AdtFinalProofs.
Import ListNotations.

(** ** A concrete program

    LinkedList = Node(elem: int, next: LinkedList) | Null(), and
    Fruit = Banana() | Grape(), with an ordinary class Property. *)
Definition fd n t := {| f_name := n; f_ty := t |}.
Definition Node := {| c_cls := 11; c_name := "Node"%string; c_fields := [fd "elem"%string FInt; fd "next"%string FAdt] |}%N.
Definition Null := {| c_cls := 12; c_name := "Null"%string; c_fields := [] |}%N.
Definition LinkedList := {| a_cls := 10; a_name := "LinkedList"%string; a_cons := [Node; Null] |}%N.
Definition Banana := {| c_cls := 21; c_name := "Banana"%string; c_fields := [] |}%N.
Definition Grape := {| c_cls := 22; c_name := "Grape"%string; c_fields := [] |}%N.
Definition Fruit := {| a_cls := 20; a_name := "Fruit"%string; a_cons := [Banana; Grape] |}%N.
Definition prog := [LinkedList; Fruit].

(** object = 0, NoneType = 1, Property = 3, ADT = 2. *)
Definition supers (c : cls) : list cls :=
  match c with
  | 10 | 20 => [2]
  | 11 | 12 => [10; 2]
  | 21 | 22 | 23 => [20; 2]
  | 31 => [30; 2]
  | 30 => [2]
  | _ => []
  end%N.
Definition wld : world := {|
  w_sub := fun c d => N.eqb c d || N.eqb d 0 || existsb (N.eqb d) (supers c);
  w_none := 1%N;
  w_inst := fun c => c = 1%N \/ c = 3%N |}.

Ltac world_cases := repeat match goal with
  | H : In _ (_ :: _) |- _ => destruct H as [<-|H]
  | H : In _ [] |- _ => destruct H
  | H : _ \/ _ |- _ => destruct H as [->|H] || destruct H as [H|H]
  | H : In _ (a_cons _) |- _ => progress simpl in H
  end.

Lemma wf_prog : wf_world wld prog.
Proof.
  constructor.
  - intro c. cbn. rewrite N.eqb_refl. reflexivity.
  - left. reflexivity.
  - intros c [->| ->]; cbn; intro E; [reflexivity|discriminate].
  - intros a c Ha Hc. destruct Ha as [<-|[<-|[]]]; destruct Hc as [<-|[<-|[]]]; reflexivity.
  - intros a c Ha Hc. destruct Ha as [<-|[<-|[]]]; destruct Hc as [<-|[<-|[]]]; reflexivity.
  - intros a k Ha Hk. destruct Ha as [<-|[<-|[]]]; destruct Hk as [->| ->]; reflexivity.
  - intros a a' c Ha Ha' Hc. destruct Ha as [<-|[<-|[]]]; destruct Hc as [<-|[<-|[]]]; destruct Ha' as [<-|[<-|[]]];
      cbn; intro E; try reflexivity; discriminate.
  - repeat constructor; cbn; intuition discriminate.
  - repeat constructor; cbn; intuition discriminate.
Qed.

Lemma prog_simple : forall a, In a prog -> simple_names a.
Proof.
  intros a [<-|[<-|[]]]; (split; [reflexivity|split; [repeat constructor; cbn; intuition discriminate|]]);
    intros c [<-|[<-|[]]]; (split; [reflexivity|]); (split; [discriminate|]); (split; [discriminate|]); (split; [discriminate|]);
    (split; [repeat constructor; cbn; intuition discriminate|]); intros f Hf; cbn in Hf; intuition (subst; auto; discriminate).
Qed.

Lemma prog_no_class : class_fields_universal wld prog.
Proof.
  intros a c f k [<-|[<-|[]]] [<-|[<-|[]]] Hf E; cbn in Hf; intuition (subst; discriminate).
Qed.

Definition prog_decls := match create_adts prog with Some (d, _) => d | None => [] end.
Definition prog_axioms := match create_adts prog with Some (_, x) => x | None => [] end.

Lemma prog_created : create_adts prog = Some (prog_decls, prog_axioms).
Proof. reflexivity. Qed.

Lemma prog_names : names_distinct prog_decls.
Proof. exact (program_names prog prog_decls prog_axioms prog_created (ww_adts _ _ wf_prog) prog_simple). Qed.

(** The hypothesis [is_model] of the theorems below is satisfied by the
    program above. *)
Example prog_model : is_model wld (tI wld prog) prog_decls prog_axioms.
Proof. exact (consistent wld prog prog_decls prog_axioms wf_prog prog_created prog_names prog_no_class). Qed.

(** ** C50: laws of ADT values *)

(** Reading a field of a freshly built value gives the argument. *)
Theorem C50_field_of_constructor : forall w p ds axs I a c e ts i f t,
  wf_world w p -> create_adts p = Some (ds, axs) -> is_model w I ds axs ->
  In a p -> In c (a_cons a) -> args_ok w I e a c ts ->
  nth_error (c_fields c) i = Some f -> nth_error ts i = Some t ->
  holds w I (py_eq (py_field a c f (py_cons a c ts)) t) e.
Proof. exact (fun w p ds axs I a c e ts i f t W C M Ha Hc O Hf Ht =>
  built_field w p I ds axs C M a Ha e c ts i f t Hc O Hf Ht). Qed.
Print Assumptions C50_field_of_constructor.

(** A built value is an object of exactly its constructor's class. *)
Theorem C50_type_of_constructor : forall w p ds axs I a c e ts,
  wf_world w p -> create_adts p = Some (ds, axs) -> is_model w I ds axs ->
  In a p -> In c (a_cons a) -> args_ok w I e a c ts ->
  has I SRef (ev I e (py_cons a c ts)) /\ holds w I (TypeIs (py_cons a c ts) (c_cls c)) e.
Proof. exact (fun w p ds axs I a c e ts W C M Ha Hc O => built_type w p I ds axs C M a Ha e c ts Hc O). Qed.
Print Assumptions C50_type_of_constructor.

(** Two built values are equal iff constructor and arguments are. *)
Theorem C50_equality : forall w p ds axs I a c c' e ts ts',
  wf_world w p -> create_adts p = Some (ds, axs) -> is_model w I ds axs ->
  In a p -> In c (a_cons a) -> In c' (a_cons a) -> args_ok w I e a c ts -> args_ok w I e a c' ts' ->
  (holds w I (py_eq (py_cons a c ts) (py_cons a c' ts')) e <->
   c = c' /\ Forall2 (fun t t' => holds w I (py_eq t t') e) ts ts').
Proof. exact built_equality. Qed.
Print Assumptions C50_equality.

(** Every value of the ADT has exactly one constructor. *)
Theorem C50_cases : forall w p ds axs I a v,
  wf_world w p -> create_adts p = Some (ds, axs) -> is_model w I ds axs ->
  In a p -> is_adt w I a v ->
  exists c, In c (a_cons a) /\ tyof I v = c_cls c /\
    forall c', In c' (a_cons a) -> tyof I v = c_cls c' -> c' = c.
Proof. exact (fun w p ds axs I a v W C M Ha H => value_cases w p I ds axs W C M a Ha v H). Qed.
Print Assumptions C50_cases.

(** Fields have their declared types. *)
Theorem C50_field_types : forall w p ds axs I a c f e x,
  wf_world w p -> create_adts p = Some (ds, axs) -> is_model w I ds axs ->
  In a p -> In c (a_cons a) -> In f (c_fields c) -> has I SRef (ev I e x) ->
  arg_ok w I a (f_ty f) (ev I e (py_field a c f x)).
Proof. exact (fun w p ds axs I a c f e x W C M Ha Hc Hf H => value_fields w p I ds axs C M a Ha e x c f Hc Hf H). Qed.
Print Assumptions C50_field_types.

(** A value with fields is determined by its constructor and fields.
    Missing: constructors without fields, see C50_constants_refuted. *)
Theorem C50_rebuild_partial : forall w p ds axs I a c e x,
  wf_world w p -> create_adts p = Some (ds, axs) -> is_model w I ds axs ->
  In a p -> In c (a_cons a) -> c_fields c <> [] ->
  has I SRef (ev I e x) -> holds w I (TypeIs x (c_cls c)) e ->
  holds w I (py_eq x (py_cons a c (map (fun f => py_field a c f x) (c_fields c)))) e.
Proof. exact (fun w p ds axs I a c e x W C M Ha Hc Hf H T => value_rebuild w p I ds axs W C M a Ha e x c Hc Hf H T). Qed.
Print Assumptions C50_rebuild_partial.

Definition env0 (v : val) : env (tI wld prog) := fun x => match x with VA 0 => XI 5 | VRef => XR 3%N | _ => v end.

Definition null_box : val := XX (XC 10%N 12%N []).
Definition cyc : val := XX (XO 10%N).

Lemma null_box_adt : has (tI wld prog) SRef null_box /\ w_sub wld (tyof (tI wld prog) null_box) 10%N = true.
Proof.
  split; [|reflexivity]. apply (hv_box wld prog LinkedList); [left; reflexivity|].
  apply (hv_c wld prog LinkedList Null []); [left; reflexivity|right; left; reflexivity|constructor|reflexivity].
Qed.

(** Node(5, Null()): the hypotheses hold, and the laws give its field, type
    and difference from Null(). *)
Example C50_ex : args_ok wld (tI wld prog) (env0 null_box) LinkedList Node [Var (VA 0); Var VObj] /\
  holds wld (tI wld prog) (py_eq (py_field LinkedList Node (fd "elem"%string FInt)
     (py_cons LinkedList Node [Var (VA 0); Var VObj])) (Var (VA 0))) (env0 null_box) /\
  holds wld (tI wld prog) (py_eq (py_field LinkedList Node (fd "next"%string FAdt)
     (py_cons LinkedList Node [Var (VA 0); Var VObj])) (Var VObj)) (env0 null_box) /\
  ~ holds wld (tI wld prog) (py_eq (py_cons LinkedList Node [Var (VA 0); Var VObj])
     (py_cons LinkedList Null [])) (env0 null_box).
Proof.
  assert (O : args_ok wld (tI wld prog) (env0 null_box) LinkedList Node [Var (VA 0); Var VObj]).
  { repeat constructor. exact (proj1 null_box_adt). }
  split; [exact O|]. split; [|split].
  - apply (C50_field_of_constructor wld prog prog_decls prog_axioms) with (i := 0); auto using wf_prog, prog_created, prog_model.
    + left. reflexivity.
    + left. reflexivity.
  - apply (C50_field_of_constructor wld prog prog_decls prog_axioms) with (i := 1); auto using wf_prog, prog_created, prog_model.
    + left. reflexivity.
    + left. reflexivity.
  - intro E. apply (C50_equality wld prog prog_decls prog_axioms) in E; auto using wf_prog, prog_created, prog_model.
    + destruct E as [E _]. discriminate.
    + left. reflexivity.
    + left. reflexivity.
    + right. left. reflexivity.
    + constructor.
Qed.

(** For constructors without fields the axioms allow two different values:
    [isinstance(x, Null)] does not give [x == Null()]. *)
Theorem C50_constants_refuted : exists w p ds axs I a c e x,
  wf_world w p /\ create_adts p = Some (ds, axs) /\ is_model w I ds axs /\
  In a p /\ In c (a_cons a) /\ c_fields c = [] /\
  has I SRef (ev I e x) /\ holds w I (TypeIs x (c_cls c)) e /\
  ~ holds w I (py_eq x (py_cons a c [])) e.
Proof.
  exists wld, prog, prog_decls, prog_axioms, (tI wld prog), LinkedList, Null, (env0 (XX (XN 10%N 12%N))), (Var VObj).
  split; [exact wf_prog|]. split; [exact prog_created|]. split; [exact prog_model|].
  split; [left; reflexivity|]. split; [right; left; reflexivity|]. split; [reflexivity|].
  split; [apply (hv_box wld prog LinkedList); [left; reflexivity|];
          apply (hv_n wld prog LinkedList Null); [left; reflexivity|right; left; reflexivity|reflexivity]|].
  split; [reflexivity|]. vm_compute. discriminate.
Qed.
Print Assumptions C50_constants_refuted.

(** The axioms do not exclude cyclic values: [x == Node(0, x)] is possible,
    so facts that need finiteness of the values cannot be proved. *)
Theorem C50_finite_refuted : exists w p ds axs I a c e x ts,
  wf_world w p /\ create_adts p = Some (ds, axs) /\ is_model w I ds axs /\
  In a p /\ In c (a_cons a) /\ args_ok w I e a c ts /\ In x ts /\
  has I SRef (ev I e x) /\ holds w I (py_eq x (py_cons a c ts)) e.
Proof.
  exists wld, prog, prog_decls, prog_axioms, (tI wld prog), LinkedList, Node,
    (fun x => match x with VA 0 => XI 0 | _ => cyc end), (Var VObj), [Var (VA 0); Var VObj].
  assert (K : has (tI wld prog) SRef cyc).
  { apply (hv_box wld prog LinkedList); [left; reflexivity|]. apply (hv_o wld prog LinkedList). left. reflexivity. }
  split; [exact wf_prog|]. split; [exact prog_created|]. split; [exact prog_model|].
  split; [left; reflexivity|]. split; [left; reflexivity|].
  split; [constructor; [constructor|constructor; [split; [exact K|reflexivity]|constructor]]|].
  split; [right; left; reflexivity|]. split; [exact K|]. vm_compute. reflexivity.
Qed.
Print Assumptions C50_finite_refuted.

(** Python compares NamedTuples as tuples, whatever their class; in contracts
    values of different constructors are always different.  Python evaluates
    Banana() == Grape() to True, every model of the axioms makes it false. *)
Theorem C50_python_equality_refuted : exists w p ds axs a x y tx ty,
  wf_world w p /\ create_adts p = Some (ds, axs) /\ In a p /\
  (exists I, is_model w I ds axs) /\
  nt_term a x = Some tx /\ nt_term a y = Some ty /\ nt_eq x y = true /\
  forall I e, is_model w I ds axs -> ~ holds w I (py_eq tx ty) e.
Proof.
  exists wld, prog, prog_decls, prog_axioms, Fruit, (NT "Banana"%string []), (NT "Grape"%string []),
    (py_cons Fruit Banana []), (py_cons Fruit Grape []).
  split; [exact wf_prog|]. split; [exact prog_created|]. split; [right; left; reflexivity|].
  split; [exists (tI wld prog); exact prog_model|].
  split; [reflexivity|]. split; [reflexivity|]. split; [reflexivity|].
  intros I e M E. apply (C50_equality wld prog prog_decls prog_axioms) in E; auto using wf_prog, prog_created.
  - destruct E as [E _]. discriminate.
  - right. left. reflexivity.
  - left. reflexivity.
  - right. left. reflexivity.
  - constructor.
  - constructor.
Qed.
Print Assumptions C50_python_equality_refuted.

(** ** C51: consistency of ADT declarations *)

(** The axioms generated for a program's ADTs are satisfiable exactly when
    every class-typed field accepts every object. *)
Theorem C51_consistent_iff : forall w p ds axs,
  wf_world w p -> create_adts p = Some (ds, axs) -> names_distinct ds ->
  ((exists I, is_model w I ds axs) <-> class_fields_universal w p).
Proof. exact consistent_iff. Qed.
Print Assumptions C51_consistent_iff.

(** ADTs whose fields are ints, bools and values of the ADT itself, with
    simple names, are consistent.  Missing: fields of other classes, see
    C51_class_field_refuted, and other names, see C51_names_refuted. *)
Theorem C51_consistent_partial : forall w p ds axs,
  wf_world w p -> create_adts p = Some (ds, axs) ->
  (forall a, In a p -> simple_names a) -> no_class_fields p ->
  exists I, is_model w I ds axs.
Proof. exact consistent_simple. Qed.
Print Assumptions C51_consistent_partial.

Example C51_consistent_ex : (exists I, is_model wld I prog_decls prog_axioms) /\ List.length prog_axioms = 19.
Proof. split; [exists (tI wld prog); exact prog_model|reflexivity]. Qed.

(** Pineapple(property: Property), tests/functional/verification/test_adt_3.py:
    a field whose type is an ordinary class makes the axioms contradictory,
    because the projection of Pineapple(None) is both None and a Property. *)
Definition Pineapple := {| c_cls := 23; c_name := "Pineapple"%string; c_fields := [fd "property"%string (FCls 3)] |}%N.
Definition Fruit3 := {| a_cls := 20; a_name := "Fruit"%string; a_cons := [Banana; Grape; Pineapple] |}%N.

Lemma wf_fruit3 : wf_world wld [Fruit3].
Proof.
  constructor.
  - intro c. cbn. rewrite N.eqb_refl. reflexivity.
  - left. reflexivity.
  - intros c [->| ->]; cbn; intro E; [reflexivity|discriminate].
  - intros a c [<-|[]] Hc. destruct Hc as [<-|[<-|[<-|[]]]]; reflexivity.
  - intros a c [<-|[]] Hc. destruct Hc as [<-|[<-|[<-|[]]]]; reflexivity.
  - intros a k [<-|[]] Hk. destruct Hk as [->| ->]; reflexivity.
  - intros a a' c [<-|[]] [<-|[]] _ _. reflexivity.
  - repeat constructor; cbn; intuition discriminate.
  - repeat constructor; cbn; intuition discriminate.
Qed.

Theorem C51_class_field_refuted : exists w p ds axs,
  wf_world w p /\ create_adts p = Some (ds, axs) /\ (forall a, In a p -> simple_names a) /\
  ~ exists I, is_model w I ds axs.
Proof.
  exists wld, [Fruit3], (decls Fruit3 ++ []), (adt_axioms Fruit3 ++ []).
  split; [exact wf_fruit3|]. split; [reflexivity|].
  assert (S : forall a, In a [Fruit3] -> simple_names a).
  { intros a [<-|[]]. split; [reflexivity|split; [repeat constructor; cbn; intuition discriminate|]].
    intros c [<-|[<-|[<-|[]]]]; (split; [reflexivity|]); (split; [discriminate|]); (split; [discriminate|]); (split; [discriminate|]);
    (split; [repeat constructor; cbn; intuition discriminate|]); intros f Hf; cbn in Hf; intuition (subst; auto; discriminate). }
  split; [exact S|]. intros [I M].
  pose proof (needs_universal wld [Fruit3] I _ _ eq_refl M) as U.
  destruct (U Fruit3 Pineapple (fd "property"%string (FCls 3%N)) 3%N (or_introl eq_refl) (or_intror (or_intror (or_introl eq_refl)))
    (or_introl eq_refl) eq_refl) as [U1 _].
  specialize (U1 1%N (or_introl eq_refl)). discriminate.
Qed.
Print Assumptions C51_class_field_refuted.

(** With simple names the generated functions have pairwise different names. *)
Theorem C51_names_partial : forall p ds axs, create_adts p = Some (ds, axs) ->
  NoDup (map a_cls p) -> (forall a, In a p -> simple_names a) -> names_distinct ds.
Proof. exact program_names. Qed.
Print Assumptions C51_names_partial.

Example C51_names_ex : map d_sym (domain_decls LinkedList) = map (fun s => (10%N, s))
  ["LinkedList_Node"; "LinkedList_Null"; "LinkedList_Node_elem"; "LinkedList_Node_next"; "LinkedList_cons_type";
   "LinkedList_Node_type"; "LinkedList_Null_type"; "LinkedList_is_Node"; "LinkedList_is_Null"]%string.
Proof. reflexivity. Qed.

(** Token = Tok(type: int): the projection of the field and the constant of
    the constructor get the same name. *)
Definition Tok := {| c_cls := 31; c_name := "Tok"%string; c_fields := [fd "type"%string FInt] |}%N.
Definition Token := {| a_cls := 30; a_name := "Token"%string; a_cons := [Tok] |}%N.

Theorem C51_names_refuted : exists p ds axs, create_adts p = Some (ds, axs) /\ NoDup (map a_cls p) /\
  (forall a, In a p -> NoDup (map c_name (a_cons a)) /\
     forall c, In c (a_cons a) -> c_name c <> a_name a /\ NoDup (map f_name (c_fields c))) /\
  ~ names_distinct ds.
Proof.
  exists [Token], (decls Token ++ []), (adt_axioms Token ++ []).
  split; [reflexivity|]. split; [repeat constructor; cbn; tauto|]. split.
  - intros a [<-|[]]. split; [repeat constructor; cbn; tauto|]. intros c [<-|[]]. split; [discriminate|repeat constructor; cbn; tauto].
  - unfold names_distinct. cbn. intro N. inversion N as [|? ? _ N1]; subst. inversion N1 as [|? ? H _]; subst.
    apply H. right. left. reflexivity.
Qed.
Print Assumptions C51_names_refuted.

(** The class statements accepted below ADT are the defining classes and the
    constructors. *)
Theorem C51_accepted_classes : forall s, st_bases s <> 0 -> (check_well_formed s = true <-> adt_shape s).
Proof. exact shapes. Qed.
Print Assumptions C51_accepted_classes.

Example C51_accepted_ex :
  check_well_formed {| st_name := "Node"%string; st_bases := 2; st_named_tuple := Some "Node"%string;
    st_body_pass := true; st_super_is_ADT := false |} = true /\
  check_well_formed {| st_name := "Node"%string; st_bases := 2; st_named_tuple := Some "Nod"%string;
    st_body_pass := true; st_super_is_ADT := false |} = false.
Proof. split; reflexivity. Qed.
