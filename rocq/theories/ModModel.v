(** Model of the translation of module level code: src/nagini_translation/translators/
    statement.py (140-334), the initial state of method.py (908-977) and the set of
    defined names of translators/common.py (309-372) and resources/name_domain.sil. *)
From Coq Require Import List Arith Bool String.
Import ListNotations.

(** resources/name_domain.sil: the domain _Name. Names are strings here, the code uses
    their number (property C01). *)
Inductive gname := Single (x : string) | Combined (p g : gname).
Fixpoint gname_eqb (a b : gname) : bool :=
  match a, b with
  | Single x, Single y => String.eqb x y
  | Combined p g, Combined p' g' => gname_eqb p p' && gname_eqb g g'
  | _, _ => false
  end.

(** A top level statement of a module.
    [TStmt uses e methods defs]: a simple statement, function or class definition. It
    reads the names [uses], has the effect [e] and defines the names [defs] of the
    module; [methods] are the methods in the body of a class definition.
    [TImport s p]: import s as p, or import s with p = s; dotted names are not modelled.
    [TFrom s ns]: from s import ns, each with its optional alias.
    [TStar s]: from s import *.
    Imports of the ignored modules (constants.py:376-391) are not modelled; control flow
    around imports is rejected by the code (local.import) or not analyzed. *)
Inductive tstmt :=
| TStmt (uses : list gname) (e : nat) (methods defs : list string)
| TImport (s p : string)
| TFrom (s : string) (ns : list (string * option string))
| TStar (s : string).

(** The modules: their statements, the module that a module name stands for
    (analyzer.py:204-208), and the type prefix and file of a module. *)
Record program := {
  body : nat -> list tstmt;
  modnum : string -> nat;
  mod_name : nat -> string;
  mod_file : nat -> string }.

(** The generated statements. *)
Inductive vstmt :=
| VSetDef (m : nat)                          (* defined_m := true *)
| VIfNotDef (m : nat) (b : list vstmt)       (* if (!defined_m) { b } *)
| VAssertDef (m : nat)                       (* assert defined_m *)
| VAssertNames (m : nat) (gs : list gname)   (* assert g in names_m, for all of them *)
| VAddName (m : nat) (g : gname)             (* names_m := names_m union Set(g) *)
| VUnion (m m' : nat)                        (* names_m := names_m union names_m' *)
| VAddPrefixed (m : nat) (p : string) (m' : nat)
      (* inhale a set of all p.g with g in names_m', names_m := names_m union this set *)
| VEff (e : nat).                            (* the translation of the statement itself *)

Section Translate.
  Variable P : program.

  (** analyzer.py:195-214 with 263-266: the original modules behind from_imports, in order. *)
  Definition from_imports (m : nat) : list nat :=
    flat_map (fun t => match t with
                       | TFrom s _ | TStar s => [modnum P s]
                       | _ => []
                       end) (body P m).

  (** statement.py:216-224: the module that a from-import refers to. The file test is a
      prefix test. *)
  Definition find_import (m : nat) (s : string) : option nat :=
    find (fun m' => String.eqb (mod_name P m') s || String.prefix s (mod_file P m')) (from_imports m).

  (** Optional results: [None] is out of fuel, or the failing assert in 224. *)
  Fixpoint collect {A : Type} (l : list (option (list A))) : option (list A) :=
    match l with
    | [] => Some []
    | None :: _ => None
    | Some x :: l' => match collect l' with Some y => Some (x ++ y) | None => None end
    end.

  (** statement.py:140-199 (_execute_module_statements) with the loop over the statements
      of the module given as a function. [stack] is imported_modules; 147-148 add
      the current module, 172 and 187 add and remove the imported one. *)
  Definition execute_module (tr : list nat -> nat -> option (list vstmt))
             (stack : list nat) (cur m : nat) : option (list vstmt) :=
    let imported := if existsb (Nat.eqb cur) stack then stack else cur :: stack in
    if existsb (Nat.eqb m) imported then Some [VAssertDef m]
    else match tr (m :: imported) m with
         | None => None
         | Some b => Some [VIfNotDef m (VSetDef m :: b)]
         end.

  (** statement.py:248-262 *)
  Definition import_name (cur m : nat) (e : string * option string) : list vstmt :=
    [VAssertNames m [Single (fst e)];
     VAddName cur (Single (match snd e with Some a => a | None => fst e end))].

  (** statement.py:201-264 (ImportFrom), 274-334 (Import), 336-355 (FunctionDef), 357-391
      (ClassDef, its body runs [translate_stmt] on the methods, which marks their names as
      defined in the module) and 1450 (assignments). *)
  Definition tr_stmt (tr : list nat -> nat -> option (list vstmt)) (stack : list nat) (cur : nat)
             (t : tstmt) : option (list vstmt) :=
    match t with
    | TStmt uses e methods defs =>
        Some (VAssertNames cur uses :: VEff e ::
              map (fun x => VAddName cur (Single x)) (methods ++ defs))
    | TImport s p =>
        match execute_module tr stack cur (modnum P s) with
        | None => None
        | Some l => Some (l ++ [VAddPrefixed cur p (modnum P s)])
        end
    | TFrom s ns =>
        match find_import cur s with
        | None => None
        | Some m => match execute_module tr stack cur m with
                    | None => None
                    | Some l => Some (l ++ flat_map (import_name cur m) ns)
                    end
        end
    | TStar s =>
        match find_import cur s with
        | None => None
        | Some m => match execute_module tr stack cur m with
                    | None => None
                    | Some l => Some (l ++ [VUnion cur m])
                    end
        end
    end.

  (** statement.py:182-183: the statements of a module. *)
  Fixpoint tr_body (fuel : nat) (stack : list nat) (cur : nat) : option (list vstmt) :=
    match fuel with
    | O => None
    | S f => collect (map (tr_stmt (tr_body f) stack cur) (body P cur))
    end.
End Translate.

(** The generated program's state: the variables defined_m and names_m, the effects so far
    and whether some assertion failed. *)
Record vstate := { defd : nat -> bool; names : nat -> list gname; trace : list nat; failed : bool }.

Definition upd {A : Type} (f : nat -> A) (m : nat) (v : A) : nat -> A := fun k => if Nat.eqb k m then v else f k.

(** Execution. An assertion that fails is recorded. The set that statement.py:302-329
    inhales is only bounded from below (326); taking the least one is the hardest case, since
    names only occur in tests for presence. *)
Fixpoint vexec (s : vstmt) (st : vstate) : vstate :=
  match s with
  | VSetDef m => {| defd := upd (defd st) m true; names := names st; trace := trace st; failed := failed st |}
  | VIfNotDef m b => if defd st m then st else fold_left (fun a c => vexec c a) b st
  | VAssertDef m => {| defd := defd st; names := names st; trace := trace st; failed := failed st || negb (defd st m) |}
  | VAssertNames m gs =>
      {| defd := defd st; names := names st; trace := trace st;
         failed := failed st || negb (forallb (fun g => existsb (gname_eqb g) (names st m)) gs) |}
  | VAddName m g =>
      {| defd := defd st; names := upd (names st) m (names st m ++ [g]); trace := trace st; failed := failed st |}
  | VUnion m m' =>
      {| defd := defd st; names := upd (names st) m (names st m ++ names st m'); trace := trace st; failed := failed st |}
  | VAddPrefixed m p m' =>
      {| defd := defd st; names := upd (names st) m (names st m ++ map (Combined (Single p)) (names st m'));
         trace := trace st; failed := failed st |}
  | VEff e => {| defd := defd st; names := names st; trace := trace st ++ [e]; failed := failed st |}
  end.
Definition vexecs (l : list vstmt) (st : vstate) : vstate := fold_left (fun a c => vexec c a) l st.

(** method.py:931-944: only the main module is defined, no names (the built-in module
    variables are not modelled). *)
Definition initial (main : nat) : vstate :=
  {| defd := Nat.eqb main; names := fun _ => []; trace := []; failed := false |}.

(** method.py: the statements of the main module, from the initial state. *)
Definition run_main (P : program) (fuel main : nat) : option vstate :=
  match tr_body P fuel [] main with
  | None => None
  | Some l => Some (vexecs l (initial main))
  end.
