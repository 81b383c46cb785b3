(* Meaning of the programs of GhostModel, and what extraction has to preserve. *)

From Coq Require Import List Bool Arith ZArith.
From Verif Require Import GhostModel.
Import ListNotations.

(* The state outside a function: what was output so far, and the heap. *)
Record world := { w_out : list val; w_heap : nat -> nat -> option val }.

(* Local variables; None: not assigned (an access is an error at run time). *)
Definition locals := nat -> option val.
Definition empty : locals := fun _ => None.
Definition upd (l : locals) (x : nat) (v : val) : locals :=
  fun y => if Nat.eqb y x then Some v else l y.
Definition set_field (w : world) (r f : nat) (v : val) : world :=
  {| w_out := w_out w;
     w_heap := fun r' f' => if Nat.eqb r' r && Nat.eqb f' f then Some v else w_heap w r' f' |}.

Definition truth (v : val) : bool :=
  match v with
  | VNone => false
  | VInt z => negb (Z.eqb z 0)
  | VRef _ | VPair _ _ => true
  end.

Inductive outcome := ONormal | OBreak | OContinue | OReturn (v : val).

(* Results: None is an error at run time, or running out of steps. *)
Section Run.
  Variable P : program.
  (* How calls behave. *)
  Variable call : nat -> list val -> world -> option (world * val).

  Section Evals.
    Variable ev : expr -> world -> option (world * val).
    Fixpoint evals (es : list expr) (w : world) : option (world * list val) :=
      match es with
      | [] => Some (w, [])
      | e :: r => match ev e w with
                  | None => None
                  | Some (w1, v) => match evals r w1 with
                                    | None => None
                                    | Some (w2, vs) => Some (w2, v :: vs)
                                    end
                  end
      end.
  End Evals.

  (* Expressions, evaluated from left to right. *)
  Fixpoint eval (l : locals) (e : expr) (w : world) : option (world * val) :=
    match e with
    | EConst _ v => Some (w, v)
    | EVar _ x => match l x with Some v => Some (w, v) | None => None end
    | EAttr _ r f =>
        match eval l r w with
        | Some (w1, VRef o) => match w_heap w1 o f with Some v => Some (w1, v) | None => None end
        | _ => None
        end
    | EOp _ o es =>
        match evals (eval l) es w with
        | None => None
        | Some (w1, vs) => match p_op P o vs with Some v => Some (w1, v) | None => None end
        end
    | ETuple _ e1 e2 =>
        match eval l e1 w with
        | None => None
        | Some (w1, v1) => match eval l e2 w1 with
                           | None => None
                           | Some (w2, v2) => Some (w2, VPair v1 v2)
                           end
        end
    | ECall _ f args =>
        match evals (eval l) args w with
        | None => None
        | Some (w1, vs) => call f vs w1
        end
    | EBuiltin _ o args =>
        match evals (eval l) args w with
        | None => None
        | Some (w1, vs) => match p_op P o vs with Some v => Some (w1, v) | None => None end
        end
    end.

  Definition assign (l : locals) (t : target) (v : val) (w : world) : option (locals * world) :=
    match t with
    | TName x => Some (upd l x v, w)
    | TAttr r f => match eval l r w with
                   | Some (w1, VRef o) => Some (l, set_field w1 o f v)
                   | _ => None
                   end
    | TSeq _ [x; y] => match v with
                       | VPair a b => Some (upd (upd l x a) y b, w)
                       | _ => None
                       end
    | TSeq _ _ => None
    end.

  Section Block.
    Variable ex : stmt -> locals -> world -> option (outcome * locals * world).
    Fixpoint exec_all (ss : list stmt) (l : locals) (w : world) : option (outcome * locals * world) :=
      match ss with
      | [] => Some (ONormal, l, w)
      | s :: r => match ex s l w with
                  | Some (ONormal, l1, w1) => exec_all r l1 w1
                  | x => x
                  end
      end.
    (* while t: b, with at most k iterations. *)
    Fixpoint loop (k : nat) (t : expr) (b : locals -> world -> option (outcome * locals * world))
      (l : locals) (w : world) : option (outcome * locals * world) :=
      match k with
      | O => None
      | S k' =>
          match eval l t w with
          | None => None
          | Some (w1, v) =>
              if truth v
              then match b l w1 with
                   | Some (ONormal, l2, w2) | Some (OContinue, l2, w2) => loop k' t b l2 w2
                   | Some (OBreak, l2, w2) => Some (ONormal, l2, w2)
                   | x => x
                   end
              else Some (ONormal, l, w1)
          end
      end.
  End Block.

  Fixpoint exec (k : nat) (s : stmt) (l : locals) (w : world) {struct s}
    : option (outcome * locals * world) :=
    match s with
    | SAssign _ t e =>
        match eval l e w with
        | None => None
        | Some (w1, v) => match assign l t v w1 with
                          | None => None
                          | Some (l2, w2) => Some (ONormal, l2, w2)
                          end
        end
    | SAug _ x o e =>
        match l x with
        | None => None
        | Some vx => match eval l e w with
                     | None => None
                     | Some (w1, v) => match p_op P o [vx; v] with
                                       | None => None
                                       | Some v' => Some (ONormal, upd l x v', w1)
                                       end
                     end
        end
    | SExpr _ e => match eval l e w with
                   | None => None
                   | Some (w1, _) => Some (ONormal, l, w1)
                   end
    | SIf _ t b o =>
        match eval l t w with
        | None => None
        | Some (w1, v) => if truth v then exec_all (exec k) b l w1 else exec_all (exec k) o l w1
        end
    | SWhile _ t b => loop k t (exec_all (exec k) b) l w
    | SReturn _ None => Some (OReturn VNone, l, w)
    | SReturn _ (Some e) => match eval l e w with
                            | None => None
                            | Some (w1, v) => Some (OReturn v, l, w1)
                            end
    | SBreak _ => Some (OBreak, l, w)
    | SContinue _ => Some (OContinue, l, w)
    | SPass _ => Some (ONormal, l, w)
    | SMatch _ e cases =>
        match eval l e w with
        | Some (w1, VInt z) =>
            (fix pick (cs : list (Z * list stmt)) : option (outcome * locals * world) :=
               match cs with
               | [] => Some (ONormal, l, w1)
               | (z', b) :: r => if Z.eqb z z' then exec_all (exec k) b l w1 else pick r
               end) cases
        | _ => None
        end
    end.
End Run.

Fixpoint bind (l : locals) (xs : list nat) (vs : list val) : option locals :=
  match xs, vs with
  | [], [] => Some l
  | x :: xs', v :: vs' => bind (upd l x v) xs' vs'
  | _, _ => None
  end.

(* Calling function f with at most n nested calls, and loops of at most n iterations. *)
Fixpoint run (P : program) (n : nat) (f : nat) (vs : list val) (w : world) : option (world * val) :=
  match n with
  | O => None
  | S m =>
      match bind empty (f_params (p_fun P f)) vs with
      | None => None
      | Some l =>
          match f_code (p_fun P f) with
          | FPrim p => let (out, v) := p (w_out w) vs in
                       Some ({| w_out := out; w_heap := w_heap w |}, v)
          | FBody b =>
              match exec_all (exec P (run P m) m) b l w with
              | Some (ONormal, _, w1) => Some (w1, VNone)
              | Some (OReturn v, _, w1) => Some (w1, v)
              | _ => None
              end
          end
      end
  end.

(* Two states with the same outputs and the same values in all regular fields. *)
Definition same_world (P : program) (w w' : world) : Prop :=
  w_out w = w_out w' /\
  (forall r f, p_gfield P f = false -> w_heap w r f = w_heap w' r f).

(* The arguments for the regular parameters. *)
Fixpoint regular_args (gv : nat -> bool) (xs : list nat) (vs : list val) : list val :=
  match xs, vs with
  | x :: xs', v :: vs' => if gv x then regular_args gv xs' vs' else v :: regular_args gv xs' vs'
  | _, _ => []
  end.

(* The regular part of a result.  The second case for a result with two parts is a function
   that ends without a return statement (mypy reports it). *)
Definition same_result (r : rinfo) (v v' : val) : Prop :=
  match r with
  | RReg => v' = v
  | RGhost => True
  | RMixed => (exists g, v = VPair v' g) \/ (v = VNone /\ v' = VNone)
  end.

(* The property: whatever a regular function of P does when all code is executed, it does
   in the extracted program, which gets only the regular arguments. *)
Definition preserved (P Q : program) (f : nat) : Prop :=
  forall n vs w w1 v w',
    run P n f vs w = Some (w1, v) -> same_world P w w' ->
    exists m w1' v',
      run (extract_program Q) m f (regular_args (f_gvar (p_fun P f)) (f_params (p_fun P f)) vs) w'
        = Some (w1', v') /\
      same_world P w1 w1' /\ same_result (f_ret (p_fun P f)) v v'.

(* Every function is written in source form: nothing has been checked yet. *)
Fixpoint plain (e : expr) : bool :=
  match ann e with
  | Some _ => false
  | None =>
      match e with
      | EConst _ _ | EVar _ _ => true
      | EAttr _ r _ => plain r
      | EOp _ _ es | ECall _ _ es | EBuiltin _ _ es => forallb plain es
      | ETuple _ e1 e2 => plain e1 && plain e2
      end
  end.

(* What the rest of Nagini guarantees about the functions: in ghost functions everything is
   ghost; pure functions contain only calls of pure functions and no assignments to
   attributes, and the functions without a body behave as declared. *)
Section WellFormed.
  Variable P : program.
  Fixpoint pure_expr (e : expr) : bool :=
    match e with
    | EConst _ _ | EVar _ _ => true
    | EAttr _ r _ => pure_expr r
    | EOp _ _ es | EBuiltin _ _ es => forallb pure_expr es
    | ETuple _ e1 e2 => pure_expr e1 && pure_expr e2
    | ECall _ f args => f_pure (p_fun P f) && forallb pure_expr args
    end.
  Definition not_attr (t : target) : bool := match t with TAttr _ _ => false | _ => true end.
  Fixpoint pure_stmt (s : stmt) : bool :=
    match s with
    | SAssign _ t e => pure_expr e && not_attr t
    | SAug _ _ _ e | SExpr _ e => pure_expr e
    | SIf _ t b o => pure_expr t && forallb pure_stmt b && forallb pure_stmt o
    | SWhile _ t b => pure_expr t && forallb pure_stmt b
    | SReturn _ (Some e) => pure_expr e
    | SReturn _ None | SBreak _ | SContinue _ | SPass _ => true
    | SMatch _ e cases =>
        pure_expr e &&
        (fix all (cs : list (Z * list stmt)) : bool :=
           match cs with [] => true | (_, b) :: r => forallb pure_stmt b && all r end) cases
    end.
  Definition well_formed : Prop :=
    forall f, let F := p_fun P f in
      (f_ghost F = true -> (forall x, f_gvar F x = true)) /\
      match f_code F with
      | FPrim p =>
          ((f_ghost F = true \/ f_pure F = true) -> forall out vs, fst (p out vs) = out) /\
          (f_ghost F = false -> f_ret F = RReg /\ forallb (fun x => negb (f_gvar F x)) (f_params F) = true)
      | FBody b => f_pure F = true -> forallb pure_stmt b = true
      end.
End WellFormed.

(* The programs for which preservation is proved: impure functions are called only as a whole
   right-hand side, statement or returned value; functions with ghost parameters are not
   called in arguments of other calls; outside ghost functions, regular attributes are
   accessed on regular variables and their attributes; no list targets, no match, no ghost
   variable that is updated with the result of a call; no call of a regular function with a
   ghost result as a statement or as the second part of a returned pair. *)
Section Core.
  Variable P : program.
  Variable gv : nat -> bool.
  Variable fghost : bool.
  Variable fret : rinfo.
  Fixpoint chain (e : expr) : bool :=
    match e with EVar _ _ => true | EAttr _ r _ => chain r | _ => false end.
  Fixpoint regular_chain (e : expr) : bool :=
    match e with
    | EVar _ x => negb (gv x)
    | EAttr _ r f => negb (p_gfield P f) && regular_chain r
    | _ => false
    end.
  Definition access (e : expr) (f : nat) : bool :=
    if fghost || p_gfield P f then chain e else regular_chain e.
  Definition effect_free (f : nat) : bool := f_pure (p_fun P f) || f_ghost (p_fun P f).
  Definition no_ghost_params (f : nat) : bool :=
    forallb (fun x => negb (f_gvar (p_fun P f) x)) (f_params (p_fun P f)).
  Fixpoint core_expr (nested : bool) (e : expr) : bool :=
    match e with
    | EConst _ _ | EVar _ _ => true
    | EAttr _ r f => access r f
    | EOp _ _ es => forallb (core_expr nested) es
    | ETuple _ e1 e2 => core_expr nested e1 && core_expr nested e2
    | ECall _ f args =>
        effect_free f && (negb nested || no_ghost_params f) && forallb (core_expr true) args
    | EBuiltin _ _ args => forallb (core_expr true) args
    end.
  Definition core_rhs (e : expr) : bool :=
    core_expr false e ||
    match e with ECall _ f args => forallb (core_expr true) args | _ => false end.
  Definition core_target (t : target) : bool :=
    match t with
    | TName _ => true
    | TAttr r f => access r f
    | TSeq lst xs => negb lst
    end.
  Definition ghost_result (e : expr) : bool :=
    match e with
    | ECall _ f _ => negb (f_ghost (p_fun P f)) &&
                     match f_ret (p_fun P f) with RReg => false | _ => true end
    | _ => false
    end.
  Fixpoint core_stmt (s : stmt) : bool :=
    match s with
    | SAssign _ t e => core_rhs e && core_target t
    | SAug _ x _ e => if gv x then core_expr false e && negb (is_call e) else core_rhs e
    | SExpr _ e => core_rhs e && negb (ghost_result e)
    | SIf _ t b o => core_expr false t && forallb core_stmt b && forallb core_stmt o
    | SWhile _ t b => core_expr false t && forallb core_stmt b
    | SReturn _ None => true
    | SReturn _ (Some e) =>
        core_rhs e &&
        match fret, e with RMixed, ETuple _ _ e2 => negb (ghost_result e2) | _, _ => true end
    | SBreak _ | SContinue _ | SPass _ => true
    | SMatch _ _ _ => false
    end.
End Core.

Definition core (P : program) : Prop :=
  forall f, match f_code (p_fun P f) with
            | FPrim _ => True
            | FBody b => forallb (core_stmt P (f_gvar (p_fun P f)) (f_ghost (p_fun P f)) (f_ret (p_fun P f))) b = true
            end.

(* All expressions of a statement are in source form. *)
Definition plain_target (t : target) : bool :=
  match t with TAttr e _ => plain e | _ => true end.
Fixpoint plain_stmt (s : stmt) : bool :=
  match s with
  | SAssign _ t e => plain e && plain_target t
  | SAug _ _ _ e | SExpr _ e => plain e
  | SIf _ t b o => plain t && forallb plain_stmt b && forallb plain_stmt o
  | SWhile _ t b => plain t && forallb plain_stmt b
  | SReturn _ (Some e) => plain e
  | SReturn _ None | SBreak _ | SContinue _ | SPass _ => true
  | SMatch _ e cases =>
      plain e &&
      (fix all (cs : list (Z * list stmt)) : bool :=
         match cs with [] => true | (_, b) :: r => forallb plain_stmt b && all r end) cases
  end.
Definition source (P : program) : Prop :=
  forall f, match f_code (p_fun P f) with
            | FPrim _ => True
            | FBody b => forallb plain_stmt b = true
            end.

(* The program with the attributes that the checker sets. *)
Definition annotate (P : program) : program :=
  {| p_fun := fun f => match check_function P (p_fun P f) with Some g => g | None => p_fun P f end;
     p_gfield := p_gfield P; p_op := p_op P |}.

(* Small programs for the counterexamples and examples.  Variables from 10 on are ghost, field
   0 is regular, the others are ghost.  Function 0 is the one we look at; 1 outputs its
   argument and returns 7; 2 is a pure function that returns its argument. *)
Definition ghost_from_10 (x : nat) : bool := Nat.leb 10 x.
Definition mk_fun (ghost pure : bool) (params : list nat) (ret : rinfo) (b : list stmt) : func :=
  {| f_ghost := ghost; f_pure := pure; f_params := params;
     f_gvar := if ghost then fun _ => true else ghost_from_10; f_ret := ret; f_code := FBody b |}.
Definition emit_fun : func :=
  {| f_ghost := false; f_pure := false; f_params := [0]; f_gvar := ghost_from_10; f_ret := RReg;
     f_code := FPrim (fun out vs => (out ++ vs, VInt 7)) |}.
Definition id_fun : func := mk_fun false true [0] RReg [SReturn (false, false) (Some (EVar None 0))].
(* Operator 0 adds, 1 is less-than, any other returns its first argument. *)
Definition small_op (o : nat) (vs : list val) : option val :=
  match o, vs with
  | 0, [VInt a; VInt b] => Some (VInt (a + b))
  | 1, [VInt a; VInt b] => Some (VInt (if Z.ltb a b then 1 else 0))
  | S (S _), v :: _ => Some v
  | _, _ => None
  end.
Definition small_program (main : func) (others : list func) : program :=
  {| p_fun := fun f => nth f (main :: emit_fun :: id_fun :: others) id_fun;
     p_gfield := fun f => negb (Nat.eqb f 0); p_op := small_op |}.

(* Short forms for source expressions and statements. *)
Definition num (z : Z) : expr := EConst None (VInt z).
Definition var (x : nat) : expr := EVar None x.
Definition callf (f : nat) (args : list expr) : expr := ECall None f args.
Definition emit (e : expr) : expr := callf 1 [e].
Definition assign_to (x : nat) (e : expr) : stmt := SAssign (false, false) (TName x) e.
Definition do_expr (e : expr) : stmt := SExpr (false, false) e.
Definition ret (e : expr) : stmt := SReturn (false, false) (Some e).

(* The checker accepts the program, which is in source form and well formed, and yet the
   extracted function 0 behaves differently. *)
Definition accepted_but_different (P : program) : Prop :=
  checked P (annotate P) /\ source P /\ well_formed P /\
  f_ghost (p_fun P 0) = false /\ ~ preserved P (annotate P) 0.
