(* The ghost checker and the extraction of the regular program.

   Models, at the pinned commit, under src/nagini_translation/ghost,
     ghost_checker.py 205-217 (generic_visit), 249-388 (visit_FunctionDef, visit_Return),
       402-527 (assignments), 571-597 (visit_While, visit_If, check_control_flow),
       659-699 (visit_Expr, check_for_call, visit_Break, visit_Continue),
       826-1042 (check_call), 1075-1089 (_check_unresolved_call),
       1116-1150 (_check_ghost_func, is_assignable), 1152-1333 (is_ghost, _is_expr_ghost)
     extraction.py 125-170 (extract, generic_extract), 177-211 (extract_FunctionDef),
       213-361
   for a language of functions with local variables, attributes, calls, assignments,
   conditionals, while loops, match, return, break and continue.

   Simplifications: ghost status of variables, parameters, fields and functions is given
   (analyzer.py 372-426, 1045-1067); no classes, methods with receivers, subscripts, comprehensions,
   for loops, exceptions, with, else branches of loops, starred and keyword arguments; calls
   of contract functions are left out; only tuples of two elements; a call has as many
   arguments as the function has parameters (mypy).  None stands for a raised
   InvalidProgramException. *)

From Coq Require Import List Bool Arith ZArith.
Import ListNotations.

Inductive val := VNone | VInt (z : Z) | VRef (r : nat) | VPair (a b : val).

(* The attributes is_ghost, contains_ghost and is_pure that the checker puts on a node. *)
Record flags := { is_ghost : bool; contains_ghost : bool; is_pure : bool }.

(* Expressions.  a is None until the checker has set the attributes.
   EOp: operators, comparisons, conditional expressions, lists, ...
   EBuiltin: a call whose target is not resolved (len, range, ...). *)
Inductive expr :=
| EConst (a : option flags) (v : val)
| EVar (a : option flags) (x : nat)
| EAttr (a : option flags) (e : expr) (f : nat)
| EOp (a : option flags) (o : nat) (es : list expr)
| ETuple (a : option flags) (e1 e2 : expr)
| ECall (a : option flags) (f : nat) (args : list expr)
| EBuiltin (a : option flags) (o : nat) (args : list expr).

Definition ann (e : expr) : option flags :=
  match e with
  | EConst a _ | EVar a _ | EAttr a _ _ | EOp a _ _ | ETuple a _ _ | ECall a _ _
  | EBuiltin a _ _ => a
  end.

Definition set_ann (a : flags) (e : expr) : expr :=
  match e with
  | EConst _ v => EConst (Some a) v
  | EVar _ x => EVar (Some a) x
  | EAttr _ r f => EAttr (Some a) r f
  | EOp _ o es => EOp (Some a) o es
  | ETuple _ e1 e2 => ETuple (Some a) e1 e2
  | ECall _ f args => ECall (Some a) f args
  | EBuiltin _ o args => EBuiltin (Some a) o args
  end.

Definition flag_ghost (e : expr) : bool :=
  match ann e with Some a => is_ghost a | None => false end.
Definition flag_contains (e : expr) : bool :=
  match ann e with Some a => contains_ghost a | None => false end.
Definition flag_pure (e : expr) : bool :=
  match ann e with Some a => is_pure a | None => false end.

(* isinstance(e, ast.Call) *)
Definition is_call (e : expr) : bool :=
  match e with ECall _ _ _ | EBuiltin _ _ _ => true | _ => false end.

(* Targets of assignments: a name, an attribute, a tuple or (lst) a list of names. *)
Inductive target :=
| TName (x : nat)
| TAttr (e : expr) (f : nat)
| TSeq (lst : bool) (xs : list nat).

(* Statements, with is_ghost and contains_ghost. *)
Inductive stmt :=
| SAssign (fl : bool * bool) (t : target) (e : expr)
| SAug (fl : bool * bool) (x : nat) (o : nat) (e : expr)
| SExpr (fl : bool * bool) (e : expr)
| SIf (fl : bool * bool) (t : expr) (b o : list stmt)
| SWhile (fl : bool * bool) (t : expr) (b : list stmt)
| SReturn (fl : bool * bool) (e : option expr)
| SBreak (fl : bool * bool)
| SContinue (fl : bool * bool)
| SPass (fl : bool * bool)
| SMatch (fl : bool * bool) (e : expr) (cases : list (Z * list stmt)).

Definition sflags (s : stmt) : bool * bool :=
  match s with
  | SAssign fl _ _ | SAug fl _ _ _ | SExpr fl _ | SIf fl _ _ _ | SWhile fl _ _ | SReturn fl _
  | SBreak fl | SContinue fl | SPass fl | SMatch fl _ _ => fl
  end.

(* get_return_info: ghost_checker.py 798-824. *)
Inductive rinfo := RReg | RGhost | RMixed.

(* The code of a function: a body, or an effect on the outputs for functions that are not
   written in the language. *)
Inductive code :=
| FPrim (p : list val -> list val -> list val * val)
| FBody (b : list stmt).

Record func := {
  f_ghost : bool;
  f_pure : bool;
  f_params : list nat;
  f_gvar : nat -> bool;
  f_ret : rinfo;
  f_code : code
}.

(* p_op: the meaning of operators and builtin functions. *)
Record program := {
  p_fun : nat -> func;
  p_gfield : nat -> bool;
  p_op : nat -> list val -> option val
}.

(* Running a function that may fail over a list, collecting booleans and results. *)
Section MapM.
  Context {A : Type} (h : A -> option (bool * A)).
  Fixpoint mapM (l : list A) : option (list bool * list A) :=
    match l with
    | [] => Some ([], [])
    | x :: r => match h x with
                | None => None
                | Some (b, y) => match mapM r with
                                 | None => None
                                 | Some (bs, ys) => Some (b :: bs, y :: ys)
                                 end
                end
    end.
End MapM.

Definition any (l : list bool) : bool := existsb (fun b => b) l.

Definition mk (g c : bool) : flags := {| is_ghost := g; contains_ghost := c; is_pure := false |}.
Definition mkp (g c p : bool) : flags := {| is_ghost := g; contains_ghost := c; is_pure := p |}.

Section Checker.
  Variable P : program.
  (* Ghost status of the local variables of the current function. *)
  Variable gv : nat -> bool.

  (* Checks in a ghost context (in_ghost_ctx).  item = false: is_ghost (1152-1192, cached
     when the attribute exists).  item = true: one item of check_for_call (671-684), i.e.
     check_call for calls and check_for_call for anything else.
     Calls: 937-949 (reject impure regular functions), 1116-1126; unresolved: 1075-1089. *)
  Fixpoint gcheck (item : bool) (e : expr) {struct e} : option (bool * expr) :=
    match (if item then None else ann e) with
    | Some a => Some (is_ghost a, e)
    | None =>
        match e with
        | EConst a v => if item then Some (false, e) else Some (false, EConst (Some (mk false false)) v)
        | EVar a x => if item then Some (false, e) else Some (gv x, EVar (Some (mk (gv x) (gv x))) x)
        | EAttr a r f =>
            if item
            then match gcheck true r with
                 | None => None
                 | Some (_, r') => Some (false, EAttr a r' f)
                 end
            else Some (p_gfield P f, EAttr (Some (mk (p_gfield P f) (p_gfield P f))) r f)
        | EOp a o es =>
            match mapM (gcheck item) es with
            | None => None
            | Some (bs, es') =>
                if item then Some (false, EOp a o es')
                else Some (any bs, EOp (Some (mk (any bs) (any bs || existsb flag_contains es'))) o es')
            end
        | ETuple a e1 e2 =>
            match gcheck item e1 with
            | None => None
            | Some (b1, e1') =>
                match gcheck item e2 with
                | None => None
                | Some (b2, e2') =>
                    if item then Some (false, ETuple a e1' e2')
                    else Some (b1 || b2, ETuple (Some (mk (b1 || b2)
                           (b1 || b2 || (flag_contains e1' || flag_contains e2')))) e1' e2')
                end
            end
        | ECall a f args =>
            if negb (f_ghost (p_fun P f)) && negb (f_pure (p_fun P f)) then None
            else match mapM (gcheck true) args with
                 | None => None
                 | Some (_, args') =>
                     Some (true, ECall (Some (mkp true true (f_pure (p_fun P f)))) f args')
                 end
        | EBuiltin a o args =>
            match mapM (gcheck false) args with
            | None => None
            | Some (_, args') => Some (true, EBuiltin (Some (mkp true true true)) o args')
            end
        end
    end.

  (* check_for_call(node) in a ghost context: 671-684. *)
  Definition check_for_call (e : expr) : option (bool * expr) :=
    match e with
    | EConst _ _ | EVar _ _ => Some (false, e)
    | EAttr a r f => match gcheck true r with
                     | None => None
                     | Some (_, r') => Some (false, EAttr a r' f)
                     end
    | EOp a o es => match mapM (gcheck true) es with
                    | None => None
                    | Some (_, es') => Some (false, EOp a o es')
                    end
    | ETuple a e1 e2 =>
        match gcheck true e1 with
        | None => None
        | Some (_, e1') => match gcheck true e2 with
                           | None => None
                           | Some (_, e2') => Some (false, ETuple a e1' e2')
                           end
        end
    | ECall a f args => match mapM (gcheck true) args with
                        | None => None
                        | Some (_, args') => Some (false, ECall a f args')
                        end
    | EBuiltin a o args => match mapM (gcheck true) args with
                           | None => None
                           | Some (_, args') => Some (false, EBuiltin a o args')
                           end
    end.

  (* The conversion in is_assignable (1139-1145): e has been checked with result b. *)
  Definition convert (b target_ghost : bool) (e : expr) : expr :=
    if negb b && target_ghost && negb (is_call e && negb (flag_pure e))
    then set_ann (mkp true true (flag_pure e)) e else e.

  (* _check_ghost_func (1116-1126). *)
  Definition ghost_func (f : nat) (args : list expr) : option (bool * rinfo * expr) :=
    match mapM (gcheck true) args with
    | None => None
    | Some (_, args') => Some (true, RReg, ECall (Some (mkp true true (f_pure (p_fun P f)))) f args')
    end.

  (* The arguments of a call of a regular function outside ghost code (988-1013):
     Some None means that a ghost value was passed for a regular parameter. *)
  Section Args.
    Variable is_ghost_r : expr -> option (bool * expr).
    Variable pg : nat -> bool.   (* ghost status of the parameters *)
    Fixpoint check_args (params : list nat) (args : list expr) {struct args} : option (option (bool * list expr) * list expr) :=
      match args, params with
      | [], [] => Some (Some (false, []), [])
      | e :: es, x :: ps =>
          if pg x
          then match gcheck false e with
               | None => None
               | Some (b, e') =>
                   match check_args ps es with
                   | None => None
                   | Some (Some (_, l), all) => Some (Some (true, convert b true e' :: l), convert b true e' :: all)
                   | Some (None, all) => Some (None, convert b true e' :: all)
                   end
               end
          else match is_ghost_r e with
               | None => None
               | Some (true, e') => Some (None, e' :: es)
               | Some (false, e') =>
                   match check_args ps es with
                   | None => None
                   | Some (Some (c, l), all) => Some (Some (c, e' :: l), e' :: all)
                   | Some (None, all) => Some (None, e' :: all)
                   end
               end
      | _, _ => None
      end.
  End Args.

  Definition ret_ghost (r : rinfo) : bool := match r with RReg => false | _ => true end.

  (* is_ghost outside ghost code; calls: check_call (826-1042), _check_unresolved_call. *)
  Fixpoint rcheck (e : expr) {struct e} : option (bool * expr) :=
    match ann e with
    | Some a => Some (is_ghost a, e)
    | None =>
        match e with
        | EConst _ v => Some (false, EConst (Some (mk false false)) v)
        | EVar _ x => Some (gv x, EVar (Some (mk (gv x) (gv x))) x)
        | EAttr _ r f =>
            Some (p_gfield P f, EAttr (Some (mk (p_gfield P f) (p_gfield P f))) r f)
        | EOp _ o es =>
            match mapM rcheck es with
            | None => None
            | Some (bs, es') =>
                Some (any bs, EOp (Some (mk (any bs) (any bs || existsb flag_contains es'))) o es')
            end
        | ETuple _ e1 e2 =>
            match rcheck e1 with
            | None => None
            | Some (b1, e1') =>
                match rcheck e2 with
                | None => None
                | Some (b2, e2') =>
                    Some (b1 || b2, ETuple (Some (mk (b1 || b2)
                           (b1 || b2 || (flag_contains e1' || flag_contains e2')))) e1' e2')
                end
            end
        | ECall _ f args =>
            let fn := p_fun P f in
            if f_ghost fn
            then match ghost_func f args with
                 | None => None
                 | Some (b, _, c) => Some (b, c)
                 end
            else match check_args rcheck (f_gvar fn) (f_params fn) args with
                 | None => None
                 | Some (Some (c, args'), _) =>
                     Some (ret_ghost (f_ret fn), ECall (Some (mkp false c (f_pure fn))) f args')
                 | Some (None, args') =>
                     if f_pure fn
                     then match ghost_func f args' with
                          | None => None
                          | Some (b, _, c) => Some (b, c)
                          end
                     else None
                 end
        | EBuiltin _ o args =>
            match mapM rcheck args with
            | None => None
            | Some (bs, args') => Some (any bs, EBuiltin (Some (mkp (any bs) (any bs) true)) o args')
            end
        end
    end.

  (* is_ghost, in a ghost context or not. *)
  Definition check_expr (ctx : bool) (e : expr) : option (bool * expr) :=
    if ctx then gcheck false e else rcheck e.

  (* The ghost information of a call's result, for unpacking: 491-506.  e is the call with
     its attributes set, b what check_expr returned. *)
  Definition unpack_values (e : expr) (b : bool) : bool * bool :=
    match e with
    | ECall _ f _ =>
        if flag_ghost e then (true, true)
        else match f_ret (p_fun P f) with
             | RMixed => (false, true)
             | RGhost => (true, true)
             | RReg => (false, false)
             end
    | _ => (b, b)
    end.

  (* is_assignable (1128-1150), with booleans. *)
  Definition assignable (ctx conv b1 b2 : bool) : bool :=
    ((conv && negb b1 && b2) || Bool.eqb b1 b2) && (negb ctx || b2).

  (* The names of a tuple or list target: (is ghost) for each. *)
  Definition seq_ok (ctx : bool) (xs : list nat) (v : bool * bool) : bool :=
    match xs with
    | [x; y] =>
        let conv := Bool.eqb (gv x) (gv y) in
        assignable ctx conv (fst v) (gv x) && assignable ctx conv (snd v) (gv y)
    | _ => false
    end.

  Definition target_ghost (t : target) : bool :=
    match t with
    | TName x => gv x
    | TAttr _ f => p_gfield P f
    | TSeq _ xs => forallb gv xs
    end.
  Definition target_contains (t : target) : bool :=
    match t with
    | TName x => gv x
    | TAttr _ f => p_gfield P f
    | TSeq _ xs => existsb gv xs
    end.

  (* generic_visit (205-217) of an expression: every node gets the context. *)
  Fixpoint generic (ctx : bool) (e : expr) : expr :=
    let a := mk ctx ctx in
    match e with
    | EConst _ v => EConst (Some a) v
    | EVar _ x => EVar (Some a) x
    | EAttr _ r f => EAttr (Some a) (generic ctx r) f
    | EOp _ o es => EOp (Some a) o (map (generic ctx) es)
    | ETuple _ e1 e2 => ETuple (Some a) (generic ctx e1) (generic ctx e2)
    | ECall _ f args => ECall (Some a) f (map (generic ctx) args)
    | EBuiltin _ o args => EBuiltin (Some a) o (map (generic ctx) args)
    end.

  (* The function that is checked: is it ghost, its return information. *)
  Variable fghost : bool.
  Variable fret : rinfo.

  Definition snd_flags (l : list stmt) : bool := existsb (fun s => snd (sflags s)) l.

  Section Stmts.
    Variable h : bool -> stmt -> option stmt.
    Fixpoint visit_all (ctx : bool) (l : list stmt) : option (list stmt) :=
      match l with
      | [] => Some []
      | s :: r => match h ctx s with
                  | None => None
                  | Some s' => match visit_all ctx r with
                               | None => None
                               | Some r' => Some (s' :: r')
                               end
                  end
      end.
  End Stmts.

  (* visit_Return outside ghost functions: 347-388. *)
  Definition visit_return (e : option expr) : option stmt :=
    match e with
    | None => Some (SReturn (false, false) None)
    | Some e =>
        match fret with
        | RMixed =>
            match e with
            | ETuple _ e1 e2 =>
                match rcheck e1 with
                | None => None
                | Some (b1, e1') =>
                    if assignable false true b1 false then
                      match rcheck e2 with
                      | None => None
                      | Some (b2, e2') =>
                          if assignable false true b2 true then
                            Some (SReturn (false, true)
                                   (Some (ETuple (Some (mk false true)) e1' (convert b2 true e2'))))
                          else None
                      end
                    else None
                end
            | ECall _ f _ =>
                match rcheck e with
                | None => None
                | Some (_, e') =>
                    if negb (flag_ghost e') &&
                       match f_ret (p_fun P f) with RMixed => true | _ => false end
                    then Some (SReturn (false, true) (Some e'))
                    else None
                end
            | _ => None
            end
        | r =>
            match rcheck e with
            | None => None
            | Some (b, e') =>
                if assignable false true b (ret_ghost r) then
                  let e'' := convert b (ret_ghost r) e' in
                  Some (SReturn (false, ret_ghost r || flag_contains e'') (Some e''))
                else None
            end
        end
    end.

  Fixpoint visit (ctx : bool) (s : stmt) {struct s} : option stmt :=
    match s with
    | SAssign _ t e =>                                              (* 402-422 *)
        let tg := target_ghost t in
        let definitely := tg && negb (is_call e) in
        let ctx' := ctx || definitely in
        match check_expr ctx' e with
        | None => None
        | Some (b, e') =>
            match t with
            | TSeq _ xs =>
                if seq_ok ctx' xs (unpack_values e' b) then
                  let g := definitely || (tg && flag_ghost e') in
                  Some (SAssign (g, g || flag_contains e' || target_contains t) t e')
                else None
            | _ =>
                if assignable ctx' true b tg then
                  let e'' := convert b tg e' in
                  let g := definitely || (tg && flag_ghost e'') in
                  Some (SAssign (g, g || flag_contains e'' || target_contains t) t e'')
                else None
            end
        end
    | SAug _ x o e =>                                               (* 434-449 *)
        let tg := gv x in
        let definitely := tg && negb (is_call e) in
        let ctx' := ctx || definitely in
        match check_expr ctx' e with
        | None => None
        | Some (b, e') =>
            if assignable ctx' true b tg then
              let g := definitely || (tg && flag_ghost e') in
              Some (SAug (g, g || flag_contains e' || tg) x o e')
            else None
        end
    | SExpr _ e =>                                                  (* 659-669 *)
        match check_expr ctx e with
        | None => None
        | Some (true, e') =>
            match check_for_call e' with
            | None => None
            | Some (_, e'') => Some (SExpr (true, flag_contains e'') e'')
            end
        | Some (false, e') => Some (SExpr (false, flag_contains e') e')
        end
    | SIf _ t b o =>                                                (* 578-597 *)
        match check_expr ctx t with
        | None => None
        | Some (g, t1) =>
            match (if g then check_for_call t1 else Some (false, t1)) with
            | None => None
            | Some (_, t') =>
                match visit_all visit (ctx || g) b with
                | None => None
                | Some b' =>
                    match visit_all visit (ctx || g) o with
                    | None => None
                    | Some o' => Some (SIf (g, g || flag_contains t' || snd_flags b' || snd_flags o') t' b' o')
                    end
                end
            end
        end
    | SWhile _ t b =>                                               (* 571-576 *)
        match check_expr ctx t with
        | None => None
        | Some (g, t1) =>
            match (if g then check_for_call t1 else Some (false, t1)) with
            | None => None
            | Some (_, t') =>
                match visit_all visit (ctx || g) b with
                | None => None
                | Some b' => Some (SWhile (g, g || flag_contains t' || snd_flags b') t' b')
                end
            end
        end
    | SReturn _ e =>                                                (* 340-388 *)
        if fghost then
          match e with
          | None => Some (SReturn (true, true) None)
          | Some e => match gcheck true e with
                      | None => None
                      | Some (_, e') => Some (SReturn (true, true) (Some e'))
                      end
          end
        else if ctx then None else visit_return e
    | SBreak _ => if ctx then None else Some (SBreak (false, false))
    | SContinue _ => if ctx then None else Some (SContinue (false, false))
    | SPass _ => Some (SPass (ctx, ctx))
    | SMatch _ e cases =>                                           (* 205-217 *)
        match (fix go (l : list (Z * list stmt)) : option (list (Z * list stmt)) :=
                 match l with
                 | [] => Some []
                 | (z, b) :: r =>
                     match visit_all visit ctx b with
                     | None => None
                     | Some b' => match go r with
                                  | None => None
                                  | Some r' => Some ((z, b') :: r')
                                  end
                     end
                 end) cases with
        | None => None
        | Some cases' =>
            Some (SMatch (ctx, ctx || existsb (fun c => snd_flags (snd c)) cases') (generic ctx e) cases')
        end
    end.
End Checker.

(* visit_FunctionDef: 249-338. *)
Definition check_function (P : program) (f : func) : option func :=
  match f_code f with
  | FPrim p => Some f
  | FBody b =>
      match visit_all (visit P (f_gvar f) (f_ghost f) (f_ret f)) (f_ghost f) b with
      | None => None
      | Some b' => Some {| f_ghost := f_ghost f; f_pure := f_pure f; f_params := f_params f;
                           f_gvar := f_gvar f; f_ret := f_ret f; f_code := FBody b' |}
      end
  end.

(* check: all functions are accepted, Q is the program with attributes. *)
Definition checked (P Q : program) : Prop :=
  (forall f, check_function P (p_fun P f) = Some (p_fun Q f)) /\
  p_gfield Q = p_gfield P /\ p_op Q = p_op P.

(* extract for expressions (125-170, 318-338); None: removed.  A node without attributes
   raises an AttributeError in Python; they do not occur here. *)
Fixpoint extract (e : expr) : option expr :=
  if flag_ghost e then None
  else if negb (flag_contains e) then Some e
  else
    let child x := match extract x with Some y => y | None => x end in
    match e with
    | EConst _ _ | EVar _ _ | EAttr _ _ _ => Some e
    | EOp a o es => Some (EOp a o (map child es))
    | ETuple a e1 e2 => Some (ETuple a (child e1) (child e2))
    | ECall a f args =>
        Some (ECall a f (flat_map (fun x => match extract x with Some y => [y] | None => [] end) args))
    | EBuiltin a o args =>
        Some (EBuiltin a o (flat_map (fun x => match extract x with Some y => [y] | None => [] end) args))
    end.

(* extract of a target: 213-231. *)
Definition extract_target (P : program) (gv : nat -> bool) (t : target) : option target :=
  match t with
  | TName x => if gv x then None else Some t
  | TAttr _ f => if p_gfield P f then None else Some t
  | TSeq lst xs =>
      if lst
      then if forallb gv xs then None
           else if existsb gv xs then Some (TSeq true (filter (fun x => negb (gv x)) xs)) else Some t
      else match filter (fun x => negb (gv x)) xs with
           | [] => None
           | [x] => Some (TName x)
           | l => Some (TSeq false l)
           end
  end.

(* extract and _extract_body for statements: 125-139, 213-350.  An assertion that fails
   (lines 235, 246, 309) is left out: the statement is then kept. *)
Section Extract.
  Variable P : program.
  Variable gv : nat -> bool.
  Variable h : stmt -> option stmt.
  Fixpoint extract_list (l : list stmt) : list stmt :=
    match l with
    | [] => []
    | s :: r => match h s with Some s' => s' :: extract_list r | None => extract_list r end
    end.
End Extract.

Definition or_pass (l : list stmt) : list stmt :=
  match l with [] => [SPass (false, false)] | _ => l end.

Fixpoint extract_stmt (P : program) (gv : nat -> bool) (s : stmt) : option stmt :=
  if fst (sflags s) then None
  else if negb (snd (sflags s)) then Some s
  else
    let body := extract_list (extract_stmt P gv) in
    match s with
    | SAssign fl t e =>                                             (* 213-242 *)
        match extract e with
        | None => Some s
        | Some e' => match extract_target P gv t with
                     | None => Some (SExpr fl e')
                     | Some t' => Some (SAssign fl t' e')
                     end
        end
    | SAug fl x o e =>                                              (* 308-311 *)
        match extract e with None => Some s | Some e' => Some (SAug fl x o e') end
    | SExpr fl e =>                                                 (* 314-316 *)
        match extract e with None => Some s | Some e' => Some (SExpr fl e') end
    | SIf fl t b o =>                                               (* 275-279 *)
        match extract t with
        | None => Some s
        | Some t' => Some (SIf fl t' (or_pass (body b)) (body o))
        end
    | SWhile fl t b =>                                              (* 281-285 *)
        match extract t with
        | None => Some s
        | Some t' => Some (SWhile fl t' (or_pass (body b)))
        end
    | SReturn fl (Some (ETuple a e1 e2)) =>                         (* 255-273 *)
        Some (SReturn fl (match extract e1, extract e2 with
                          | Some e1', Some e2' => Some (ETuple a e1' e2')
                          | Some e1', None => Some e1'
                          | None, Some e2' => Some e2'
                          | None, None => None
                          end))
    | SReturn fl (Some e) => Some (SReturn fl (extract e))
    | SReturn fl None => Some s
    | SBreak _ | SContinue _ | SPass _ => Some s
    | SMatch fl e cases =>                                          (* generic_extract *)
        match extract e with
        | None => Some s
        | Some e' =>
            Some (SMatch fl e' (map (fun c => (fst c, body (snd c))) cases))
        end
    end.

(* extract_FunctionDef: 177-211. *)
Definition extract_function (P : program) (f : func) : func :=
  {| f_ghost := f_ghost f; f_pure := f_pure f;
     f_params := filter (fun x => negb (f_gvar f x)) (f_params f);
     f_gvar := f_gvar f; f_ret := f_ret f;
     f_code := match f_code f with
               | FPrim p => FPrim p
               | FBody b => FBody (or_pass (extract_list (extract_stmt P (f_gvar f)) b))
               end |}.

(* The extracted program; the ghost functions are not in it. *)
Definition removed_function : func :=
  {| f_ghost := true; f_pure := false; f_params := []; f_gvar := fun _ => true; f_ret := RReg;
     f_code := FBody [SBreak (false, false)] |}.
Definition extract_program (Q : program) : program :=
  {| p_fun := fun f => if f_ghost (p_fun Q f) then removed_function
                       else extract_function Q (p_fun Q f);
     p_gfield := p_gfield Q; p_op := p_op Q |}.
