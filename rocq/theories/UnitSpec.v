(** What a user expects to be verified, independently of how the translator collects it. *)
From Coq Require Import Bool Arith List NArith.
From Verif Require Import NamesModel ClsModel ClsSpec UnitModel.
Import ListNotations.
Local Open Scope nat_scope.

Definition module_at (P : prog) (i : nat) (m : modul) : Prop := nth_error (p_modules P) i = Some m.
(** A class of the user's own modules, as opposed to the built-in ones. *)
Definition own_class (P : prog) (c : cid) : Prop :=
  exists i m, module_at P i m /\ md_global m = false /\ In c (md_classes m).

Definition some_class (P : prog) (c : cid) : Prop := exists i m, module_at P i m /\ In c (md_classes m).

(** [n] classes, each defined after its base; the base of a class is in a module; an ADT class has no members (the analyzer
    requires its body to be [pass]). *)
Record wf_prog (n : nat) (P : prog) : Prop := {
  wfp_table : wf_table n (p_tb P);
  wfp_classes : forall c, some_class P c -> c < n;
  wfp_base : forall c p, some_class P c -> superclass (p_tb P) c = Some p -> some_class P p;
  wfp_adt : forall c, p_adt P c = true ->
    c_functions (p_tb P c) = [] /\ c_methods (p_tb P c) = [] /\ c_static (p_tb P c) = [] /\
    p_preds P c = [] /\ p_props P c = [] }.

(** The method has a Python body that is translated on its own: it is neither built in nor
    inlined where it is called. *)
Definition has_body (P : prog) (o : owner) (x : nat) : Prop :=
  m_interface (p_info P o x) = false /\ m_inline (p_info P o x) = false.

(** The root of the family of predicate [x] of class [c]: upwards as long as the direct
    superclass also defines the predicate. *)
Inductive family_of (P : prog) (x : nat) : cid -> cid -> Prop :=
| fo_root c : (forall p, superclass (p_tb P) c = Some p -> ~ In x (p_preds P p)) -> family_of P x c c
| fo_step c p r : superclass (p_tb P) c = Some p -> In x (p_preds P p) -> family_of P x p r -> family_of P x c r.

(** Everything a user expects to be checked when the whole program is verified, except the
    statements at the top level. *)
Inductive must_check (P : prog) : piece -> Prop :=
| mc_function i m x : module_at P i m -> md_global m = false -> In x (md_functions m) ->
    m_interface (p_info P (OModule i) x) = false -> must_check P (UFunction (OModule i) x)
| mc_method i m x : module_at P i m -> md_global m = false -> In x (md_methods m) ->
    has_body P (OModule i) x -> must_check P (UMethod (OModule i) x)
| mc_predicate i m x : module_at P i m -> md_global m = false -> In x (md_predicates m) ->
    must_check P (UPredicate i x)
| mc_op i m x : module_at P i m -> md_global m = false -> In x (md_ops m) -> must_check P (UOp i x)
| mc_class_function c x : own_class P c -> In x (c_functions (p_tb P c)) ->
    m_interface (p_info P (OClass c) x) = false -> must_check P (UFunction (OClass c) x)
| mc_class_method c x : own_class P c -> In x (c_methods (p_tb P c)) ->
    has_body P (OClass c) x -> must_check P (UMethod (OClass c) x)
| mc_static c x : own_class P c -> In x (c_static (p_tb P c)) -> must_check P (UMethod (OClass c) x)
| mc_getter c x b : own_class P c -> In (x, b) (p_props P c) -> must_check P (UGetter c x)
| mc_setter c x : own_class P c -> In (x, true) (p_props P c) -> must_check P (USetter c x)
| mc_override c d x : own_class P c -> superclass (p_tb P) c = Some d -> defines_method (p_tb P) x c ->
    defines (p_tb P) x d -> x <> p_init P -> has_body P (OClass c) x -> must_check P (UOverride c x)
| mc_inherit c d x : own_class P c -> nearest (p_tb P) (defines_method (p_tb P) x) c d -> d <> c ->
    In x (c_methods (p_tb P d)) -> x <> p_init P -> m_normal (p_info P (OClass d) x) = true ->
    m_interface (p_info P (OClass d) x) = false -> m_declared (p_info P (OClass d) x) = false ->
    m_imported (p_info P (OClass d) x) = false -> must_check P (UInherit c d x)
| mc_family c r x : own_class P c -> In x (p_preds P c) -> family_of P x c r -> must_check P (UFamily r x)
| mc_frame c r x : own_class P c -> In x (p_preds P c) -> family_of P x c r ->
    m_declared (p_info P (OClass r) x) = false -> must_check P (UFrame r c x).

(** Some class, function, method, predicate, global variable or IO operation of a module is
    spelled [s]. *)
Definition top_level_name (P : prog) (s : pystring) : Prop :=
  exists i m, module_at P i m /\
    ((exists x, In x (md_functions m ++ md_methods m ++ md_predicates m ++ md_vars m ++ md_ops m) /\ p_src P x = s) \/
     exists c, In c (md_classes m) /\ p_src P (p_cname P c) = s).

(** [ok d x c]: the body of method [x] of class [d] meets its contract when it runs on an
    object whose exact class is [c].  What the verifier has established, if it accepts a
    member of the program: method bodies are verified under the assumption that the exact
    class of self is the class that contains the method (method.py:506-521), inherit checks
    under the assumption that it is the inheriting class (program.py:257-264). *)
Definition established (ok : cid -> nat -> cid -> Prop) (u : piece) : Prop :=
  match u with
  | UMethod (OClass d) x => ok d x d
  | UInherit c d x => ok d x c
  | _ => True
  end.
(** The verifier accepts the program. *)
Definition accepted_prog (P : prog) (sels : list sel) (ok : cid -> nat -> cid -> Prop) : Prop :=
  forall u, in_program P sels u = true -> body_skipped P sels u = false -> established ok u.

(** A method that runs when [x] is called on an object of class [c]: found by lookup, written
    in Python, and not left unverified by the user's own declaration. *)
Definition runs_on (P : prog) (c d : cid) (x : nat) : Prop :=
  own_class P c /\ own_class P d /\ nearest (p_tb P) (defines_method (p_tb P) x) c d /\
  In x (c_methods (p_tb P d)) /\ has_body P (OClass d) x /\
  m_normal (p_info P (OClass d) x) = true /\ m_declared (p_info P (OClass d) x) = false.

(** The user selected the member [x] of class [c] (by its name, by [C.x], or the whole class),
    or the module-level name [x]. *)
Definition asked_for (P : prog) (sels : list sel) (cls : option cid) (x : nat) : Prop :=
  In (SName x) sels \/
  exists c, cls = Some c /\ (In (SQual (p_cname P c) x) sels \/ In (SName (p_cname P c)) sels).
