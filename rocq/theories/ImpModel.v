(** Model of name tables, module views and name resolution across imports:
    src/nagini_translation/lib/views.py, lib/program_nodes.py (PythonModule),
    lib/resolver.py (find_entry) and analyzer.py (collect_imports, add_module).

    A module is a number; its source is the list of its top level definitions and
    imports, in textual order.  Recursion that the code does not bound is bounded by
    fuel here: [None] means out of fuel, for every fuel means the code does not
    terminate (Python's RecursionError). *)
From Coq Require Import List Arith Bool String.
Import ListNotations.

(** The tables of a module that get_contents looks into, in its order
    (program_nodes.py:296-297). *)
Inductive kind := KClass | KFunction | KGlobal | KMethod | KPredicate | KIO | KNamespace.
Definition all_kinds : list kind := [KClass; KFunction; KGlobal; KMethod; KPredicate; KIO; KNamespace].
Definition kind_eqb (a b : kind) : bool :=
  match a, b with
  | KClass, KClass | KFunction, KFunction | KGlobal, KGlobal | KMethod, KMethod
  | KPredicate, KPredicate | KIO, KIO | KNamespace, KNamespace => true
  | _, _ => false
  end.

(** What a name denotes: the identity of a PythonNode. *)
Definition node := nat.

(** Top level statements that matter for names. [IFrom m ns] is from m import ns, with the
    optional alias of every name; [IStar m] is from m import *. A plain import adds a
    module to the table of namespaces (analyzer.py:260-262), it is an [IDef KNamespace]. *)
Inductive item :=
| IDef (k : kind) (x : string) (n : node)
| IFrom (m : nat) (ns : list (string * option string))
| IStar (m : nat).

(** views.py:21-26 (CombinedDict.__init__): later entries overwrite earlier ones, so they
    go to the front. [as_name if as_name else name]: aliases are not empty strings. *)
Definition new_name (e : string * option string) : string :=
  match snd e with Some a => a | None => fst e end.
Definition cd_names (ns : list (string * option string)) : list (string * string) :=
  fold_left (fun d e => (new_name e, fst e) :: d) ns [].

Fixpoint assoc {A : Type} (x : string) (d : list (string * A)) : option A :=
  match d with
  | [] => None
  | (y, v) :: d' => if String.eqb x y then Some v else assoc x d'
  end.
Definition has {A : Type} (x : string) (d : list (string * A)) : bool :=
  match assoc x d with Some _ => true | None => false end.

(** views.py:29-33 and 48-52: the key looked for in the tables, or none. *)
Definition cd_key (ns : list (string * option string)) (item : string) : option string :=
  match cd_names ns with
  | [] => Some item
  | d => assoc item d
  end.

(** views.py:34-37 (CombinedDict.__getitem__) and 53-58 (contains) for tables that are
    plain dicts. Absent is KeyError. *)
Fixpoint tables_get {A : Type} (key : string) (ds : list (list (string * A))) : option A :=
  match ds with
  | [] => None
  | d :: ds' => if has key d then assoc key d else tables_get key ds'
  end.
Definition cd_getitem {A : Type} ns (ds : list (list (string * A))) (item : string) : option A :=
  match cd_key ns item with
  | None => None
  | Some key => tables_get key ds
  end.
Definition cd_contains {A : Type} ns (ds : list (list (string * A))) (item : string) : bool :=
  match cd_key ns item with
  | None => false
  | Some key => existsb (has key) ds
  end.

Section Program.
  (** The source of every module. *)
  Variable body : nat -> list item.

  (** The table of one kind of a module, filled while visiting its body. *)
  Definition fields (m : nat) (k : kind) : list (string * node) :=
    flat_map (fun i => match i with
                       | IDef k' x n => if kind_eqb k' k then [(x, n)] else []
                       | _ => []
                       end) (body m).

  (** An entry of from_imports: a module (star import) or a PythonModuleView
      (analyzer.py:263-266). A view is identified by the importing module and the position
      of its import statement. *)
  Inductive import := Star (m : nat) | View (v : nat * nat).

  (** analyzer.py:181-214 (collect_imports): the entries in textual order. *)
  Fixpoint number {A : Type} (i : nat) (l : list A) : list (nat * A) :=
    match l with [] => [] | x :: l' => (i, x) :: number (S i) l' end.
  Definition from_imports (m : nat) : list import :=
    flat_map (fun e => match snd e with
                       | IFrom _ _ => [View (m, fst e)]
                       | IStar m' => [Star m']
                       | IDef _ _ _ => []
                       end) (number 0 (body m)).

  (** views.py:116-118: original_module and names of a view. *)
  Definition view_source (v : nat * nat) : nat * list (string * option string) :=
    match nth_error (body (fst v)) (snd v) with
    | Some (IFrom m ns) => (m, ns)
    | _ => (0, [])
    end.
  Definition view_module (v : nat * nat) : nat := fst (view_source v).
  Definition view_names (v : nat * nat) := snd (view_source v).

  (** A PythonModule object: an original one, or the copy that a view makes
      (views.py:117, copy.copy). *)
  Inductive mref := Orig (m : nat) | Copy (v : nat * nat).
  (** The copy shares the list from_imports with the original. *)
  Definition base (r : mref) : nat := match r with Orig m => m | Copy v => view_module v end.
  Definition mref_eqb (a b : mref) : bool :=
    match a, b with
    | Orig m, Orig m' => Nat.eqb m m'
    | Copy (m, i), Copy (m', i') => Nat.eqb m m' && Nat.eqb i i'
    | _, _ => false
    end.

  (** [extend] over a list of results. *)
  Fixpoint concat_results {A : Type} (l : list (option (list A))) : option (list A) :=
    match l with
    | [] => Some []
    | None :: _ => None
    | Some x :: l' => match concat_results l' with Some y => Some (x ++ y) | None => None end
    end.

  (** program_nodes.py:275-288 and views.py:127-131 (get_included_modules), without the
      global module. A view checks whether its copy is excluded, a module does not. *)
  Fixpoint included (fuel : nat) (exclude : list mref) (r : mref) : option (list mref) :=
    match fuel with
    | O => None
    | S f =>
        let ex := exclude ++ [r] in
        match concat_results
                (map (fun p => match p with
                               | Star m => included f ex (Orig m)
                               | View v => if existsb (mref_eqb (Copy v)) ex then Some []
                                           else included f ex (Copy v)
                               end) (from_imports (base r))) with
        | None => None
        | Some l => Some (r :: l)
        end
    end.

  (** [any(key in d for d in ds)], left to right. *)
  Fixpoint search {A : Type} (p : A -> option bool) (l : list A) : option (option A) :=
    match l with
    | [] => Some None
    | a :: l' => match p a with
                 | None => None
                 | Some true => Some (Some a)
                 | Some false => search p l'
                 end
    end.

  (** views.py:91-103 (ModuleDictView.initialize, __contains__) with 42-58
      (CombinedDict.contains); the view itself is skipped (54-55). *)
  Fixpoint view_contains (fuel : nat) (v : nat * nat) (k : kind) (item : string) : option bool :=
    match fuel with
    | O => None
    | S f =>
        match cd_key (view_names v) item with
        | None => Some false
        | Some key =>
            match included f [] (Orig (view_module v)) with
            | None => None
            | Some rs =>
                match search (fun r => match r with
                                       | Orig m => Some (has key (fields m k))
                                       | Copy w => if mref_eqb (Copy w) (Copy v) then Some false
                                                   else view_contains f w k key
                                       end) rs with
                | None => None
                | Some None => Some false
                | Some (Some _) => Some true
                end
            end
        end
    end.

  (** [key in getattr(r, field)]. *)
  Definition ref_contains (fuel : nat) (r : mref) (k : kind) (key : string) : option bool :=
    match r with
    | Orig m => Some (has key (fields m k))
    | Copy w => view_contains fuel w k key
    end.

  (** views.py:105-108 (ModuleDictView.__getitem__) with 28-37: the view itself is not
      skipped here. [Some None] is KeyError. *)
  Fixpoint view_get (fuel : nat) (v : nat * nat) (k : kind) (item : string) : option (option node) :=
    match fuel with
    | O => None
    | S f =>
        match cd_key (view_names v) item with
        | None => Some None
        | Some key =>
            match included f [] (Orig (view_module v)) with
            | None => None
            | Some rs =>
                match search (fun r => ref_contains f r k key) rs with
                | None => None
                | Some None => Some None
                | Some (Some (Orig m)) => Some (assoc key (fields m k))
                | Some (Some (Copy w)) => view_get f w k key
                end
            end
        end
    end.
  Definition ref_get (fuel : nat) (r : mref) (k : kind) (key : string) : option (option node) :=
    match r with
    | Orig m => Some (assoc key (fields m k))
    | Copy w => view_get fuel w k key
    end.

  (** program_nodes.py:290-298 (PythonModule.get_contents): a CombinedDict without names
      over the tables. [options[target_name]] after [target_name in options]. *)
  Definition contents_contains (fuel : nat) (r : mref) (x : string) : option bool :=
    match search (fun k => ref_contains fuel r k x) all_kinds with
    | None => None
    | Some None => Some false
    | Some (Some _) => Some true
    end.
  Definition contents_get (fuel : nat) (r : mref) (x : string) : option (option node) :=
    match search (fun k => ref_contains fuel r k x) all_kinds with
    | None => None
    | Some None => Some None
    | Some (Some k) => ref_get fuel r k x
    end.

  (** resolver.py:175-185 (find_entry). *)
  Definition find_entry (fuel : nat) (x : string) (rs : list mref) : option (option node) :=
    match search (fun r => contents_contains fuel r x) rs with
    | None => None
    | Some None => Some None
    | Some (Some r) => contents_get fuel r x
    end.

  (** A name in a module: resolver.py:72-73 with the containers of analyzer.py:492-496,
      common.py:955; the global module comes last. Local scopes are not modelled. *)
  Definition resolve (fuel : nat) (global m : nat) (x : string) : option (option node) :=
    match included fuel [] (Orig m) with
    | None => None
    | Some rs => find_entry fuel x (rs ++ [Orig global])
    end.
  (** An attribute of a module: resolver.py:115-119, 126. *)
  Definition resolve_attr (fuel : nat) (m : nat) (x : string) : option (option node) :=
    match included fuel [] (Orig m) with
    | None => None
    | Some rs => find_entry fuel x rs
    end.
End Program.
