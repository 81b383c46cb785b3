(** * Algebraic data types: the Viper domain generated for an ADT class

    Modelled code (paths under src/nagini_translation):
    - translators/program.py 694-1191: [_get_adt_cons_params_decl/use],
      [_conjoin], [_disjoin], the [_create_adt_func_*] and
      [_create_adt_axiom_*] generators, [_create_adt_func_box_and_unbox],
      [create_adts_domains_and_functions];
    - translators/call.py 177-211: [translate_adt_cons];
    - translators/expression.py 1080-1115: [translate_adt_decons], and
      1254-1289: [==] on ADTs is Viper equality of references;
    - lib/program_nodes.py 457-472 and 511-515 and lib/util.py 406-424: the
      names of the generated functions;
    - analyzer.py 559-627: [_check_is_adt_well_formed], [_visit_ADT].

    The generated axioms are kept as formulas (datatype [fm]); what a formula
    means in an interpretation of the domain functions is defined in
    AdtSpec.v. *)

From Coq Require Import List String NArith ZArith Bool.
Import ListNotations.

(** Python classes are identified by a number (a PythonClass object). *)
Definition cls := N.

(** Type of a constructor field after [get_target(..).try_unbox()]
    (analyzer.py 620-623): [int] and [bool] become the primitive types, the
    ADT's own class is recognised by the generators, every other class is a
    reference.  Simplification: plain class names only (no Optional, no type
    variables, no Callable). *)
Inductive fty := FInt | FBool | FAdt | FCls (c : cls).

Record fld := { f_name : string; f_ty : fty }.

(** One constructor: a subclass of the ADT class with a NamedTuple base
    (analyzer.py 607-627). *)
Record cons := { c_cls : cls; c_name : string; c_fields : list fld }.

(** One ADT: the defining class and [all_subclasses[1:]]
    (lib/program_nodes.py 475-483). *)
Record adt := { a_cls : cls; a_name : string; a_cons : list cons }.

(** ** The class statements the analyzer accepts *)

(** A class statement below [ADT], as [_check_is_adt_well_formed] sees it:
    the number of base expressions, whether the second is a call of
    NamedTuple and with which name, whether the body is [pass] (possibly
    after a docstring), whether the superclass is [ADT] itself. *)
Record adt_stmt := {
  st_name : string;
  st_bases : nat;
  st_named_tuple : option string;
  st_body_pass : bool;
  st_super_is_ADT : bool }.

(** analyzer.py 559-605: [true] if no 'malformed.adt' is raised. *)
Definition check_well_formed (s : adt_stmt) : bool :=
  if Nat.ltb 2 (st_bases s) then false
  else if negb (st_body_pass s) then false
  else if Nat.eqb (st_bases s) 2 then
    match st_named_tuple s with
    | None => false
    | Some n => String.eqb (st_name s) n && negb (st_super_is_ADT s)
    end
  else st_super_is_ADT s.

(** ** Terms and formulas of the generated domain *)

(** Viper types used by the generators. *)
Inductive srt := SInt | SBool | SRef | SAdt (a : cls).

(** A Viper function symbol.  All names go through [adt.fresh], a dictionary
    that belongs to the ADT class and maps equal requests to the same fresh
    name (lib/util.py 406-424), so a symbol is the pair of the ADT and the
    requested string. *)
Definition sym := (cls * string)%type.

(** Bound variables: '_arg<i>' ([VA i]), '___arg<i>' ([VB i]), 'obj',
    '_adt', 'ref' and '___other'. *)
Inductive var := VA (i : nat) | VB (i : nat) | VObj | VAdt | VRef | VOther.

Inductive tm :=
| Var (x : var)
| App (f : sym) (args : list tm).

Inductive fm :=
| Tru
| Eq (s t : tm)                 (* EqCmp of two terms *)
| Hold (t : tm)                 (* application of a Bool function *)
| Iff (p q : fm)                (* EqCmp of two Bool expressions *)
| And (p q : fm)
| Or (p q : fm)
| Imp (p q : fm)
| TypeIs (t : tm) (c : cls)     (* typeof(t) == c() *)
| TypeSub (t : tm) (c : cls)    (* issubtype(typeof(t), c()) *)
| All (vs : list (var * srt)) (p : fm).

(** translators/program.py 724-738.  The callers pass non-empty lists; on an
    empty list the code would raise IndexError. *)
Fixpoint conjoin (l : list fm) : fm :=
  match l with
  | [] => Tru
  | [p] => p
  | p :: r => And p (conjoin r)
  end.

Fixpoint disjoin (l : list fm) : fm :=
  match l with
  | [] => Tru
  | [p] => p
  | p :: r => Or p (disjoin r)
  end.

(** ** Names (lib/program_nodes.py 457-472, program.py 743-791) *)

Definition prefix (a : adt) : string := (a_name a ++ "_")%string.

Definition n_cons (a : adt) (c : cons) : string := (prefix a ++ c_name c)%string.

Definition n_decons (a : adt) (c : cons) (f : fld) : string :=
  (prefix a ++ (c_name c ++ ("_" ++ f_name f)))%string.

Definition n_cons_type (a : adt) : string := (prefix a ++ "cons_type")%string.

Definition n_const (a : adt) (c : cons) : string :=
  (prefix a ++ (c_name c ++ "_type"))%string.

Definition n_is (a : adt) (c : cons) : string :=
  (prefix a ++ ("is_" ++ c_name c))%string.

(** 'box_' / 'unbox_' + adt_domain_name (program.py 1068-1070, 1113). *)
Definition n_box (a : adt) : string := ("box_" ++ a_name a)%string.
Definition n_unbox (a : adt) : string := ("unbox_" ++ a_name a)%string.

Definition s_cons a c : sym := (a_cls a, n_cons a c).
Definition s_decons a c f : sym := (a_cls a, n_decons a c f).
Definition s_cons_type a : sym := (a_cls a, n_cons_type a).
Definition s_const a c : sym := (a_cls a, n_const a c).
Definition s_is a c : sym := (a_cls a, n_is a c).
Definition s_box a : sym := (a_cls a, n_box a).
Definition s_unbox a : sym := (a_cls a, n_unbox a).

(** ** Sorts of fields and constructor parameters (program.py 694-722) *)

Definition field_sort (a : adt) (t : fty) : srt :=
  match t with
  | FAdt => SAdt (a_cls a)
  | FInt => SInt
  | FBool => SBool
  | FCls _ => SRef
  end.

(** [enumerate(cons.fields.values())], starting at [i]. *)
Fixpoint params_decl (a : adt) (mk : nat -> var) (i : nat) (fs : list fld)
  : list (var * srt) :=
  match fs with
  | [] => []
  | f :: r => (mk i, field_sort a (f_ty f)) :: params_decl a mk (S i) r
  end.

Fixpoint params_use (mk : nat -> var) (i : nat) (fs : list fld) : list tm :=
  match fs with
  | [] => []
  | _ :: r => Var (mk i) :: params_use mk (S i) r
  end.

(** ** Declared functions (program.py 740-791 and 1100-1118) *)

Record decl := {
  d_sym : sym; d_args : list srt; d_res : srt; d_unique : bool }.

Definition decl_constructors (a : adt) : list decl :=
  map (fun c => {| d_sym := s_cons a c;
                   d_args := map (fun f => field_sort a (f_ty f)) (c_fields c);
                   d_res := SAdt (a_cls a); d_unique := false |}) (a_cons a).

Definition decl_deconstructors (a : adt) : list decl :=
  flat_map (fun c =>
    map (fun f => {| d_sym := s_decons a c f; d_args := [SAdt (a_cls a)];
                     d_res := field_sort a (f_ty f); d_unique := false |})
        (c_fields c)) (a_cons a).

Definition decl_constructor_types (a : adt) : list decl :=
  {| d_sym := s_cons_type a; d_args := [SAdt (a_cls a)]; d_res := SInt;
     d_unique := false |} ::
  map (fun c => {| d_sym := s_const a c; d_args := []; d_res := SInt;
                   d_unique := true |}) (a_cons a) ++
  map (fun c => {| d_sym := s_is a c; d_args := [SAdt (a_cls a)];
                   d_res := SBool; d_unique := false |}) (a_cons a).

Definition decl_box_unbox (a : adt) : list decl :=
  [ {| d_sym := s_box a; d_args := [SAdt (a_cls a)]; d_res := SRef;
       d_unique := false |};
    {| d_sym := s_unbox a; d_args := [SRef]; d_res := SAdt (a_cls a);
       d_unique := false |} ].

Definition domain_decls (a : adt) : list decl :=
  decl_constructors a ++ decl_deconstructors a ++ decl_constructor_types a.

Definition decls (a : adt) : list decl := domain_decls a ++ decl_box_unbox a.

(** ** Axioms *)

Definition has_fields (c : cons) : bool :=
  match c_fields c with [] => false | _ => true end.

(** program.py 794-821 *)
Definition equality_axioms (a : adt) : list fm :=
  flat_map (fun c =>
    if has_fields c then
      let args := params_use VA 0 (c_fields c) in
      let args2 := params_use VB 0 (c_fields c) in
      [All (params_decl a VA 0 (c_fields c) ++ params_decl a VB 0 (c_fields c))
         (Iff (Eq (App (s_cons a c) args) (App (s_cons a c) args2))
              (conjoin (map (fun st => Eq (fst st) (snd st)) (combine args args2))))]
    else []) (a_cons a).

(** program.py 823-851 *)
Definition decons_over_cons_axioms (a : adt) : list fm :=
  flat_map (fun c =>
    if has_fields c then
      let args := params_use VA 0 (c_fields c) in
      let cons_call := App (s_cons a c) args in
      [conjoin (map (fun fa =>
          All (params_decl a VA 0 (c_fields c))
              (Eq (App (s_decons a c (fst fa)) [cons_call]) (snd fa)))
        (combine (c_fields c) args))]
    else []) (a_cons a).

(** program.py 853-879.  Fields of primitive type and of the ADT's own class
    are skipped. *)
Definition decons_type_forall (a : adt) (c : cons) (f : fld) : list fm :=
  match f_ty f with
  | FCls k => [All [(VAdt, SAdt (a_cls a))]
                   (TypeSub (App (s_decons a c f) [Var VAdt]) k)]
  | _ => []
  end.

Definition decons_type_axioms (a : adt) : list fm :=
  flat_map (fun c =>
    match flat_map (decons_type_forall a c) (c_fields c) with
    | [] => []
    | fs => [conjoin fs]
    end) (a_cons a).

(** program.py 882-922 *)
Definition cons_over_decons_axioms (a : adt) : list fm :=
  flat_map (fun c =>
    if has_fields c then
      [All [(VObj, SAdt (a_cls a))]
         (Imp (Hold (App (s_is a c) [Var VObj]))
              (Eq (Var VObj)
                  (App (s_cons a c)
                     (map (fun f => App (s_decons a c f) [Var VObj])
                          (c_fields c)))))]
    else []) (a_cons a).

(** program.py 924-956 *)
Definition cons_type_const_axioms (a : adt) : list fm :=
  map (fun c =>
    let eq := Eq (App (s_cons_type a)
                    [App (s_cons a c) (params_use VA 0 (c_fields c))])
                 (App (s_const a c) []) in
    if has_fields c then All (params_decl a VA 0 (c_fields c)) eq else eq)
  (a_cons a).

(** program.py 958-987 *)
Definition constrain_cons_type_axioms (a : adt) : list fm :=
  [All [(VObj, SAdt (a_cls a))]
     (disjoin (map (fun c => Eq (App (s_cons_type a) [Var VObj])
                                (App (s_const a c) [])) (a_cons a)))].

(** program.py 989-1022 *)
Definition cons_type_bool_axioms (a : adt) : list fm :=
  map (fun c =>
    All [(VObj, SAdt (a_cls a))]
      (Iff (Eq (App (s_cons_type a) [Var VObj]) (App (s_const a c) []))
           (Hold (App (s_is a c) [Var VObj])))) (a_cons a).

(** program.py 1024-1056 *)
Definition subclass_axioms (a : adt) : list fm :=
  [All [(VRef, SRef)]
     (Imp (TypeSub (Var VRef) (a_cls a))
          (disjoin (map (fun c => TypeIs (Var VRef) (c_cls c)) (a_cons a))))].

(** program.py 1140-1180: the axioms of the domain, in order. *)
Definition domain_axioms (a : adt) : list fm :=
  equality_axioms a ++
  decons_over_cons_axioms a ++
  decons_type_axioms a ++
  cons_over_decons_axioms a ++
  cons_type_const_axioms a ++
  constrain_cons_type_axioms a ++
  cons_type_bool_axioms a ++
  subclass_axioms a.

(** The abstract Viper functions box and unbox (program.py 1058-1118).  They
    have no body, so a verifier assumes their postconditions for all
    arguments that satisfy the precondition; [Result] is the application. *)
Definition box_post (a : adt) : list fm :=
  let obj := Var VObj in
  let result := App (s_box a) [obj] in
  [TypeSub result (a_cls a); Eq (App (s_unbox a) [result]) obj] ++
  flat_map (fun c =>
    [Iff (Hold (App (s_is a c) [obj])) (TypeIs result (c_cls c));
     All [(VOther, SAdt (a_cls a))]
       (Iff (Eq obj (Var VOther)) (Eq result (App (s_box a) [Var VOther])))])
    (a_cons a).

Definition box_axiom (a : adt) : fm :=
  All [(VObj, SAdt (a_cls a))] (conjoin (box_post a)).

Definition unbox_axiom (a : adt) : fm :=
  All [(VRef, SRef)]
    (Imp (TypeSub (Var VRef) (a_cls a))
         (Eq (App (s_box a) [App (s_unbox a) [Var VRef]]) (Var VRef))).

Definition adt_axioms (a : adt) : list fm :=
  domain_axioms a ++ [box_axiom a; unbox_axiom a].

(** program.py 1110-1191: [create_adts_domains_and_functions].  [None] is the
    'malformed.adt' exception for an ADT without constructors. *)
Fixpoint create_adts (l : list adt) : option (list decl * list fm) :=
  match l with
  | [] => Some ([], [])
  | a :: r =>
      match a_cons a, create_adts r with
      | _ :: _, Some (ds, axs) => Some (decls a ++ ds, adt_axioms a ++ axs)
      | _, _ => None
      end
  end.

(** ** Uses of ADTs in Python expressions *)

(** call.py 188-200: an argument for a field of the ADT's own class is
    unboxed.  Simplification: arguments for int and bool fields are taken
    after [to_type], i.e. as Viper Int or Bool values. *)
Definition wrap_arg (a : adt) (t : fty) (arg : tm) : tm :=
  match t with
  | FAdt => App (s_unbox a) [arg]
  | _ => arg
  end.

(** call.py 177-211: translation of [C(args)]. *)
Definition py_cons (a : adt) (c : cons) (args : list tm) : tm :=
  App (s_box a)
    [App (s_cons a c)
       (map (fun fa => wrap_arg a (f_ty (fst fa)) (snd fa))
            (combine (c_fields c) args))].

(** expression.py 1080-1115: translation of [x.f] for [x] of class [c]. *)
Definition py_field (a : adt) (c : cons) (f : fld) (x : tm) : tm :=
  let call := App (s_decons a c f) [App (s_unbox a) [x]] in
  match f_ty f with
  | FAdt => App (s_box a) [call]
  | _ => call
  end.

(** expression.py 1264-1266 and 1281-1289: [x == y] on ADTs is EqCmp. *)
Definition py_eq (x y : tm) : fm := Eq x y.
