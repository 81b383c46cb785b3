(** Model of the dependencies of calls in top level code:
    src/nagini_translation/lib/program_nodes.py (1010-1034, 1106-1111),
    translators/common.py (400-459), translators/call.py (286-295, 719-727, 737-754, 764-770)
    and translators/expression.py (937-944, 1073-1077). *)
From Coq Require Import List Arith Bool.
From Verif Require Import ModModel.
Import ListNotations.

(** Declarations are numbers. The kind of a declaration; [DClass i] is a class, [i] what
    get_method('__init__') returns. *)
Inductive dkind := DVar | DFun | DMethod | DStatic | DClass (init : option nat).

(** What the body and contract of a function do with global names.
    [Read i r t]: the variable [t], or a static field of the class [t], is read via [r].
    [Call i r t]: [t] is called via the name [r]; a function, a class or a static method.
    [Invoke i r m]: the method [m] is called on an object.
    [i] identifies the AST node of the reference. *)
Inductive site := Read (i : nat) (r : gname) (t : nat) | Call (i : nat) (r : gname) (t : nat) | Invoke (i : nat) (r : gname) (m : nat).

(** The declarations: their module and name, what they use (the entries of call_deps come
    from there, in the order in which the set is iterated), and for method calls the class of
    a method, all_subclasses of a class and get_method. [method_in c m] is
    c.get_method(m.name). *)
Record decls := {
  kind_of : nat -> dkind;
  module_of : nat -> nat;
  name_of : nat -> gname;
  sites : nat -> list site;
  class_of : nat -> nat;
  subclasses : nat -> list nat;
  method_in : nat -> nat -> option nat }.

(** A dependency: the tuple (reference, target, module, condition, ...). [ref]
    is the AST node of the reference and [rname] the name it stands for. *)
Record dep := { ref : nat; rname : gname; target : nat; rmod : nat; conds : list nat }.

Definition nats_eqb (a b : list nat) : bool := if list_eq_dec Nat.eq_dec a b then true else false.
Definition dep_eqb (a b : dep) : bool :=
  Nat.eqb (ref a) (ref b) && gname_eqb (rname a) (rname b) && Nat.eqb (target a) (target b) && Nat.eqb (rmod a) (rmod b) &&
  nats_eqb (conds a) (conds b).

Section Deps.
  Variable P : decls.

  (** call.py:737-754, expression.py:943, 1077: what a use in module [m] adds to call_deps. *)
  Definition site_deps (m : nat) (s : site) : list dep :=
    match s with
    | Read i r t | Call i r t => [{| ref := i; rname := r; target := t; rmod := m; conds := [] |}]
    | Invoke i r md =>
        flat_map (fun sub => match method_in P sub md with
                             | Some b => [{| ref := i; rname := r; target := b; rmod := m; conds := [sub] |}]
                             | None => []
                             end) (subclasses P (class_of P md))
    end.
  Definition call_deps (d : nat) : list dep := flat_map (site_deps (module_of P d)) (sites P d).

  (** program_nodes.py:1033: PythonMethod has the method add_all_call_deps, PythonClass and
      PythonVar do not. *)
  Definition has_add_all (d : nat) : bool :=
    match kind_of P d with DFun | DMethod | DStatic => true | DVar | DClass _ => false end.

  (** program_nodes.py:1010-1034 and 1106-1111. [None]: the recursion does not end. *)
  Fixpoint add_all (fuel : nat) (l : list dep) (res : list dep) (prefix : list nat) : option (list dep) :=
    match fuel with
    | O => None
    | S f =>
        fold_left
          (fun acc d =>
             match acc with
             | None => None
             | Some res =>
                 if existsb (dep_eqb d) res then Some res
                 else
                   let c_prefix := match conds d with [] => prefix | cs => prefix ++ cs end in
                   let res1 := match conds d with
                               | [] => {| ref := ref d; rname := rname d; target := target d; rmod := rmod d;
                                          conds := c_prefix |} :: res
                               | _ => res
                               end in
                   if has_add_all (target d) then add_all f (call_deps (target d)) res1 c_prefix
                   else Some res1
             end) l (Some res)
    end.

  (** common.py:427-442: the condition, for the set of defined names of every module. *)
  Definition dep_holds (D : nat -> gname -> bool) (d : dep) : bool :=
    fold_left (fun acc c => implb (D (module_of P c) (name_of P c)) acc) (conds d) (D (rmod d) (rname d)).

  (** common.py:400-442 with call.py:293-295, 725-727, 769-770 and expression.py:940,
      1075: what is asserted when the use occurs at top level of module [m]. *)
  Definition top_check (fuel : nat) (D : nat -> gname -> bool) (m : nat) (s : site) : option bool :=
    let with_deps r called :=
      match called with
      | None => Some (D m r)
      | Some d => match add_all fuel (call_deps d) [] [] with
                  | None => None
                  | Some res => Some (D m r && forallb (dep_holds D) res)
                  end
      end in
    match s with
    | Read i r t => Some (D m r)
    | Call i r t => match kind_of P t with
                  | DFun => with_deps r (Some t)
                  | DClass init => with_deps r init
                  | DMethod | DStatic => Some true
                  | DVar => Some (D m r)
                  end
    | Invoke i r md => Some true
    end.
End Deps.
