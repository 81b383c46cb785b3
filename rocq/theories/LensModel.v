(** Model of the code lenses "Verify method" and of contract hovers of the language server
    (lsp_server.py 169-217, 233-266), and of how the name that a lens passes on selects what
    is verified (analyzer.py 625-627, 781-796, 819-821, 856-861, 1983-2003).

    A source file is its tree of function definitions, class definitions and other
    statements. Simplifications: async functions are left out (the analyzer has no visitor for
    them); a method whose name was used before its definition gets its contract-only flag at
    the use (find_or_create), which is left out; the selection of predicates, pure functions
    and properties is in UnitModel. *)
From Coq Require Import List Arith ZArith Bool.
Import ListNotations.

Definition name := list nat.           (* characters *)
Definition dot : nat := 46.
Inductive node :=
| Fun (f : name) (line : nat) (clauses : list nat) (body : list node)    (* clauses: the texts of Requires(...), Ensures(...), ... in its body *)
| Cls (c : name) (body : list node)
| Other (body : list node).            (* statements with blocks, e.g. if; expressions have no definitions *)
Definition fname (x : node) : name := match x with Fun f _ _ _ => f | Cls _ _ | Other _ => [] end.
Definition fline (x : node) : nat := match x with Fun _ l _ _ => l | Cls _ _ | Other _ => 0 end.
Definition fclauses (x : node) : list nat := match x with Fun _ _ cl _ => cl | Cls _ _ | Other _ => [] end.

(** _functions (lsp_server.py 169-182) *)
Fixpoint walk (prefix : name) (x : node) : list (name * node) :=
  match x with
  | Fun f _ _ b => (prefix ++ f, x) :: flat_map (walk (prefix ++ f ++ [dot])) b
  | Cls c b => flat_map (walk (prefix ++ c ++ [dot])) b
  | Other _ => []
  end.
Definition functions (t : list node) : list (name * node) := flat_map (walk []) t.

(** code_lens (lsp_server.py 195-207): line and argument of the command *)
Definition code_lens (t : list node) : list (Z * name) :=
  map (fun p : name * node => (Z.max (Z.of_nat (fline (snd p)) - 1) 0, fst p)) (functions t).

(** What the analyzer visits: functions with the current class (analyzer.py 625-634, 819-821,
    visit_default 458-466). *)
Fixpoint visit (cls : option name) (x : node) : list (option name * node) :=
  match x with
  | Fun _ _ _ b => (cls, x) :: flat_map (visit cls) b
  | Cls c b => flat_map (visit (Some c)) b
  | Other b => flat_map (visit cls) b
  end.
Definition members (t : list node) : list (option name * node) := flat_map (visit None) t.
(** nested.function.declaration, nested.class.declaration (analyzer.py 626-627, 820-821) *)
Fixpoint not_nested (cls fn : bool) (x : node) : bool :=
  match x with
  | Fun _ _ _ b => negb fn && forallb (not_nested cls true) b
  | Cls _ b => negb fn && negb cls && forallb (not_nested true false) b
  | Other b => forallb (not_nested cls fn) b
  end.
Definition accepts (t : list node) : bool := forallb (not_nested false false) t.

Definition name_eqb (a b : name) : bool := if list_eq_dec Nat.eq_dec a b then true else false.
Definition mem (a : name) (l : list name) : bool := existsb (name_eqb a) l.
(** is_contract_only (analyzer.py 1991-2002) *)
Definition is_selected (sel : list name) (cls : option name) (f : name) : bool :=
  match cls with
  | Some c => if mem c sel then true else mem (c ++ [dot] ++ f) sel
  | None => false
  end || mem f sel.
(** analyzer.py 791 and 861: is the body of a method left out? [imported]: the module is not
    the one that is verified; [declared]: it has a decorator that says so. *)
Definition contract_only (sel : list name) (imported declared : bool) (cls : option name) (f : name) : bool :=
  let nosel := match sel with [] => true | _ => false end in
  (imported && nosel) || declared || (negb nosel && negb (is_selected sel cls f)).

(** _contract_hover (lsp_server.py 247-266), for the word at the position *)
Fixpoint first_contract (w : name) (l : list (name * node)) : option (name * list nat) :=
  match l with
  | [] => None
  | (q, x) :: l' =>
      if name_eqb (fname x) w
      then match fclauses x with [] => None | cl => Some (q, cl) end
      else first_contract w l'
  end.
Definition contract_hover (w : name) (t : list node) : option (name * list nat) := first_contract w (functions t).
