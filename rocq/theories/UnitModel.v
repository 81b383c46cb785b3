(** Which checks the translator generates for a program, and which of them are part of the
    program that is sent to the verifier.
    Models parts of /repo/src/nagini_translation/translators/program.py (translate_program
    1288-1581, _translate_fields 84-119, track_dependencies 548-561), analyzer.py
    (858-864, 884, 785-796, 1983-2003), lib/program_nodes.py (PythonModule.process 200-225,
    PythonClass.process 675-710) and translators/method.py (594-600, 982-1002). *)
From Coq Require Import Bool Arith List NArith.
From Verif Require Import NamesModel ClsModel.
Import ListNotations.
Local Open Scope nat_scope.

(** Where a function or method is defined: in the module with this position in the list of
    modules, or in a class. *)
Inductive owner := OModule (i : nat) | OClass (c : cid).

(** The attributes of a PythonMethod that are read (program_nodes.py:1045-1100).
    [m_imported]: its module is not the main module (analyzer.py:785-796); [m_declared]: it
    has the decorator ContractOnly or abstractmethod; [m_normal]: method_type is normal. *)
Record minfo := {
  m_interface : bool; m_inline : bool; m_declared : bool; m_normal : bool; m_imported : bool }.

(** A module: its own dictionaries (program_nodes.py:128-195). *)
Record modul := {
  md_global : bool;
  md_classes : list cid;
  md_functions : list nat;
  md_methods : list nat;
  md_predicates : list nat;
  md_vars : list nat;
  md_ops : list nat }.

(** A program.  Identifiers of the source are numbers, [p_src] gives their spelling and
    [p_cname] the identifier of a class.  [p_preds]: the predicates of a class; [p_props]:
    its properties, and whether they have a setter.  [p_taken] are the names that are in the
    table or handed out to fields, parameters, local variables and the like before the main
    method is named; in the code these are handed out between the others.  [p_ignore]: the
    option --ignore-global. *)
Record prog := {
  p_modules : list modul;
  p_tb : table;
  p_preds : cid -> list nat;
  p_props : cid -> list (nat * bool);
  p_adt : cid -> bool;
  p_classmethod : cid -> bool;
  p_cname : cid -> nat;
  p_src : nat -> pystring;
  p_info : owner -> nat -> minfo;
  p_init : nat;
  p_taken : list pystring;
  p_ignore : bool }.

(** The members of the Viper program that the translator produces for the source. *)
Inductive piece :=
| UClass (c : cid)
| UFunction (o : owner) (x : nat)
| UMethod (o : owner) (x : nat)
| UPredicate (i : nat) (x : nat)
| UGetter (c : cid) (x : nat)
| USetter (c : cid) (x : nat)
| UOverride (c : cid) (x : nat)
| UInherit (c d : cid) (x : nat)      (** class, class that defines the method, method *)
| UFamily (r : cid) (x : nat)
| UFrame (r c : cid) (x : nat)        (** root of the family, class of the member, predicate *)
| UMain
| UVar (i : nat) (x : nat)
| UOp (i : nat) (x : nat).

Definition owner_eq_dec (a b : owner) : {a = b} + {a <> b}.
Proof. decide equality; apply Nat.eq_dec. Defined.
Definition piece_eq_dec (a b : piece) : {a = b} + {a <> b}.
Proof. decide equality; try apply Nat.eq_dec; apply owner_eq_dec. Defined.

(** What the user selects with --select: an identifier or Class.member. *)
Inductive sel := SName (x : nat) | SQual (c x : nat).
Definition sel_eqb (a b : sel) : bool :=
  match a, b with
  | SName x, SName y => x =? y
  | SQual c x, SQual d y => (c =? d) && (x =? y)
  | _, _ => false
  end.
Definition sel_in (s : sel) (l : list sel) : bool := existsb (sel_eqb s) l.

(** program.py:558-560 and, with the same test, analyzer.py:1991-2001. *)
Definition is_selected (P : prog) (sels : list sel) (cls : option cid) (x : nat) : bool :=
  sel_in (SName x) sels ||
  match cls with
  | None => false
  | Some c => sel_in (SQual (p_cname P c) x) sels || sel_in (SName (p_cname P c)) sels
  end.

Definition owner_cls (o : owner) : option cid := match o with OModule _ => None | OClass c => Some c end.
Definition none_selected (sels : list sel) : bool := match sels with [] => true | _ => false end.

(** analyzer.py:861 (a method, not a pure function), with 791 and 1983-2003. *)
Definition contract_only (P : prog) (sels : list sel) (o : owner) (x : nat) : bool :=
  (m_imported (p_info P o x) && none_selected sels) ||
  m_declared (p_info P o x) ||
  (negb (none_selected sels) && negb (is_selected P sels (owner_cls o) x)).

(** program_nodes.py:1139-1144 for a predicate: overrides looks into the direct superclass
    only.  program.py:1474-1479: the root of the family of predicate [x] of class [c]. *)
Definition pred_overrides (P : prog) (c : cid) (x : nat) : option cid :=
  match superclass (p_tb P) c with
  | Some p => if mem x (p_preds P p) then Some p else None
  | None => None
  end.
Fixpoint pred_root_f (fuel : nat) (P : prog) (c : cid) (x : nat) : cid :=
  match fuel with
  | O => c
  | S f => match pred_overrides P c x with Some p => pred_root_f f P p x | None => c end
  end.
Definition pred_root (P : prog) (c : cid) (x : nat) : cid := pred_root_f c P c x.

Definition indexed (P : prog) : list (nat * modul) := combine (seq 0 (length (p_modules P))) (p_modules P).

(** program.py:84-119 _translate_fields. *)
Definition prop_pieces (P : prog) (c : cid) : list piece :=
  flat_map (fun p : nat * bool => UGetter c (fst p) :: if snd p then [USetter c (fst p)] else []) (p_props P c).

(** program.py:1433-1447, for one method of a class. *)
Definition method_pieces (P : prog) (c : cid) (x : nat) : list piece :=
  if m_interface (p_info P (OClass c) x) || m_inline (p_info P (OClass c) x) then []
  else UMethod (OClass c) x ::
       (if (negb (x =? p_init P) ||
            match superclass (p_tb P) c with Some p => p_classmethod P p | None => false end) &&
           match overrides (p_tb P) c x with Some _ => true | None => false end
        then [UOverride c x] else []).
(** program.py:1448-1460, for one static method. *)
Definition static_pieces (P : prog) (c : cid) (x : nat) : list piece :=
  UMethod (OClass c) x ::
  match overrides (p_tb P) c x with Some _ => [UOverride c x] | None => [] end.

(** program_nodes.py:495-501 all_methods. *)
Fixpoint all_methods_f (fuel : nat) (tb : table) (c : cid) : list nat :=
  match fuel with
  | O => []
  | S f => match superclass tb c with Some p => all_methods_f f tb p | None => [] end ++ c_methods (tb c)
  end.
Definition all_methods (tb : table) (c : cid) : list nat := all_methods_f (S c) tb c.

(** program.py:1461-1473, for one method name. *)
Definition inherit_pieces (P : prog) (sels : list sel) (c : cid) (x : nat) : list piece :=
  match get_method (p_tb P) c x with
  | None => []
  | Some d =>
    if negb (d =? c) && negb (x =? p_init P) && m_normal (p_info P (OClass d) x) &&
       negb (m_interface (p_info P (OClass d) x)) && negb (contract_only P sels (OClass d) x)
    then [UInherit c d x] else []
  end.

(** program.py:1406-1473, one class in the second iteration. *)
Definition class_pieces (P : prog) (sels : list sel) (c : cid) : list piece :=
  map (UFunction (OClass c)) (filter (fun x => negb (m_interface (p_info P (OClass c) x))) (c_functions (p_tb P c))) ++
  flat_map (method_pieces P c) (c_methods (p_tb P c)) ++
  flat_map (static_pieces P c) (c_static (p_tb P c)) ++
  flat_map (inherit_pieces P sels c) (all_methods (p_tb P) c).

(** program.py:1387-1473, one module in the second iteration. *)
Definition module_pieces (P : prog) (sels : list sel) (im : nat * modul) : list piece :=
  let (i, m) := im in
  map (UFunction (OModule i)) (filter (fun x => negb (m_interface (p_info P (OModule i) x))) (md_functions m)) ++
  map (UMethod (OModule i)) (filter (fun x => negb (m_interface (p_info P (OModule i) x) || m_inline (p_info P (OModule i) x))) (md_methods m)) ++
  map (UPredicate i) (md_predicates m) ++
  flat_map (class_pieces P sels) (md_classes m).

(** program.py:1509-1523 and predicate.py:67-190 for one class predicate: the predicate of
    the family of which it is a member, and its frame check, unless the family is abstract.
    The dictionary of families has one entry per root; here the root is listed for each of
    its members. *)
Definition family_pieces (P : prog) (c : cid) (x : nat) : list piece :=
  let r := pred_root P c x in
  UFamily r x :: (if m_declared (p_info P (OClass r) x) then [] else [UFrame r c x]).

(** Getters and setters: first iteration, program.py:1337 (classes that are not ADTs). *)
Definition field_pieces (P : prog) : list piece :=
  flat_map (fun im : nat * modul =>
    flat_map (fun c => if p_adt P c then [] else prop_pieces P c) (md_classes (snd im))) (indexed P).
Definition main_pieces (P : prog) : list piece := if p_ignore P then [] else [UMain].
Definition var_pieces (P : prog) : list piece :=
  flat_map (fun im : nat * modul => map (UVar (fst im)) (md_vars (snd im))) (indexed P).
Definition op_pieces (P : prog) : list piece :=
  flat_map (fun im : nat * modul => map (UOp (fst im)) (md_ops (snd im))) (indexed P).
Definition fam_pieces (P : prog) : list piece :=
  flat_map (fun im : nat * modul =>
    flat_map (fun c => flat_map (family_pieces P c) (p_preds P c)) (md_classes (snd im))) (indexed P).

(** The members in the program before chopping, in the order in which they are produced. *)
Definition tracked_pieces (P : prog) (sels : list sel) : list piece :=
  flat_map (module_pieces P sels) (indexed P) ++
  main_pieces P ++ var_pieces P ++ op_pieces P ++ fam_pieces P.
Definition emitted (P : prog) (sels : list sel) : list piece := field_pieces P ++ tracked_pieces P sels.

(** The node that track_dependencies looks at for a member, as class and name; None: the
    function is not called for this member.  The main method is a PythonMethod with the name
    __main__, which is no identifier of the source: it is not selectable here. *)
Definition tracked_node (u : piece) : option (option cid * nat) :=
  match u with
  | UFunction o x | UMethod o x => Some (owner_cls o, x)
  | UPredicate _ x | UVar _ x | UOp _ x => Some (None, x)
  | UOverride c x => Some (Some c, x)
  | UInherit _ d x => Some (Some d, x)
  | UFamily r x | UFrame r _ x => Some (Some r, x)
  | UClass _ | UGetter _ _ | USetter _ _ | UMain => None
  end.

(** The members whose names are collected in all_names: program.py:1340-1341, 103-116,
    1363-1380 (first iteration), 1444-1447, 1449-1451, 1455-1459, 1469-1472 (second
    iteration), 1500-1523. *)
Definition first_all (P : prog) (im : nat * modul) : list piece :=
  let (i, m) := im in
  if md_global m then []
  else
    map (UFunction (OModule i)) (md_functions m) ++ map (UMethod (OModule i)) (md_methods m) ++
    map (UPredicate i) (md_predicates m) ++
    flat_map (fun c => if p_adt P c then [] else
      UClass c :: prop_pieces P c ++ map (UFunction (OClass c)) (c_functions (p_tb P c)) ++
      map (UMethod (OClass c)) (c_methods (p_tb P c)) ++ map (UFamily c) (p_preds P c)) (md_classes m).
Definition is_check (u : piece) : bool :=
  match u with UOverride _ _ | UInherit _ _ _ => true | _ => false end.
Definition second_all (P : prog) (sels : list sel) (im : nat * modul) : list piece :=
  filter is_check (module_pieces P sels im) ++
  (if md_global (snd im) then []
   else flat_map (fun c => map (UMethod (OClass c)) (c_static (p_tb P c))) (md_classes (snd im)) ++
        map (UOp (fst im)) (md_ops (snd im))).
Definition all_pieces (P : prog) (sels : list sel) : list piece :=
  flat_map (first_all P) (indexed P) ++ flat_map (second_all P sels) (indexed P) ++ fam_pieces P.

(** * Names *)

Definition underscore : pystring := [95%N].
Definition member_name (P : prog) (c : cid) (x : nat) : pystring :=
  p_src P (p_cname P c) ++ underscore ++ p_src P x.
Definition str_main : pystring := [109; 97; 105; 110]%N.
Definition str_getter : pystring := [95; 103; 101; 116; 116; 101; 114]%N.
Definition str_setter : pystring := [95; 115; 101; 116; 116; 101; 114]%N.
Definition str_override : pystring := [95; 111; 118; 101; 114; 114; 105; 100; 101; 95; 99; 104; 101; 99; 107]%N.
Definition str_inherit : pystring := [95; 105; 110; 104; 101; 114; 105; 116; 95; 99; 104; 101; 99; 107]%N.
Definition str_frame : pystring := [102; 114; 97; 109; 101; 95; 99; 104; 101; 99; 107]%N.

(** The name that is wished for when a fresh name is requested for a member:
    program_nodes.py:206-225, 675-710, program.py:250, 314 (which extends the name given to
    the method, here the name wished for it), method.py:990, predicate.py:160. *)
Definition wish (P : prog) (u : piece) : pystring :=
  match u with
  | UClass c => p_src P (p_cname P c)
  | UFunction (OModule _) x | UMethod (OModule _) x | UPredicate _ x | UVar _ x | UOp _ x => p_src P x
  | UFunction (OClass c) x | UMethod (OClass c) x | UFamily c x => member_name P c x
  | UGetter c x => member_name P c x ++ str_getter
  | USetter c x => member_name P c x ++ str_setter
  | UOverride c x => member_name P c x ++ str_override
  | UInherit c _ x => member_name P c x ++ str_inherit
  | UFrame r _ x => p_src P x ++ underscore ++ p_src P x ++ str_frame
  | UMain => str_main
  end.

(** program_nodes.py:200-225, 675-710: the members of a class and of a module in the order in
    which PythonModule.process names them. *)
Definition class_names (P : prog) (c : cid) : list piece :=
  UClass c :: map (UFunction (OClass c)) (c_functions (p_tb P c)) ++
  map (UMethod (OClass c)) (c_methods (p_tb P c) ++ c_static (p_tb P c)) ++
  map (UFamily c) (p_preds P c) ++ prop_pieces P c.
Definition module_names (P : prog) (im : nat * modul) : list piece :=
  let (i, m) := im in
  flat_map (class_names P) (md_classes m) ++ map (UFunction (OModule i)) (md_functions m) ++
  map (UMethod (OModule i)) (md_methods m) ++ map (UPredicate i) (md_predicates m) ++
  map (UVar i) (md_vars m) ++ map (UOp i) (md_ops m).
Definition is_frame (u : piece) : bool := match u with UFrame _ _ _ => true | _ => false end.

(** All requests, in order: those of [process], the checks of the second iteration, the main
    method, the frame checks. *)
Definition requests_of (P : prog) (sels : list sel) : list piece :=
  flat_map (module_names P) (indexed P) ++
  flat_map (fun im => filter is_check (module_pieces P sels im)) (indexed P) ++
  main_pieces P ++ filter is_frame (fam_pieces P).

(** The names given out, in the shared table of names (see NamesModel). *)
Fixpoint assign (P : prog) (us : list piece) (tbl : list pystring) : list (piece * pystring) :=
  match us with
  | [] => []
  | u :: us' =>
    match get_fresh_name pystring pystring_eqb py_suffix (Owner) tbl (wish P u) with
    | Some (s, tbl') => (u, s) :: assign P us' tbl'
    | None => []
    end
  end.
Definition assignment (P : prog) (sels : list sel) : list (piece * pystring) :=
  assign P (requests_of P sels) (p_taken P).
Definition name_of (P : prog) (sels : list sel) (u : piece) : option pystring :=
  match find (fun p : piece * pystring => if piece_eq_dec u (fst p) then true else false) (assignment P sels) with
  | Some p => Some (snd p)
  | None => None
  end.

Definition names_of (P : prog) (sels : list sel) (us : list piece) : list pystring :=
  flat_map (fun u => match name_of P sels u with Some s => [s] | None => [] end) us.

(** program.py:558-561: the members recorded in selected_names. *)
Definition selected_pieces (P : prog) (sels : list sel) : list piece :=
  filter (fun u => match tracked_node u with Some (c, x) => is_selected P sels c x | None => false end)
         (tracked_pieces P sels).

(** program.py:1535-1539: the names handed to the chopper. *)
Definition wanted (P : prog) (sels : list sel) : list pystring :=
  if none_selected sels then names_of P sels (all_pieces P sels) ++ [str_main]
  else names_of P sels (selected_pieces P sels).

(** program.py:1571: the chopper keeps the members whose names it is given and what they
    depend on (the dependencies are left out here: they make a member part of the program
    but it is reached by name only if it is wanted). *)
Definition in_program (P : prog) (sels : list sel) (u : piece) : bool :=
  existsb (fun v => if piece_eq_dec u v then true else false) (emitted P sels) &&
  match name_of P sels u with
  | Some s => existsb (pystring_eqb s) (wanted P sels)
  | None => false
  end.

(** method.py:594-600: the body of a method that is contract-only is [inhale false]. *)
Definition body_skipped (P : prog) (sels : list sel) (u : piece) : bool :=
  match u with
  | UMethod o x => contract_only P sels o x
  | _ => false
  end.
