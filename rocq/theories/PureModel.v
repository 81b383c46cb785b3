(** Model of the translation of pure functions to Viper expressions.

    Source: src/nagini_translation/translators/pure.py (line numbers below).
    Simplifications: positions; [Unfold] statements (they do not change values);
    the boxing of literals; a user variable has a reference type, so that its
    value is always wrapped by [_assuming] (line 357-358).  Viper variables are
    numbered; condition, match-subject and match-case variables ([create_variable]
    with a fresh name) are numbered separately from the user's names. *)
From Coq Require Import List Bool Arith ZArith.
From Verif Require Import ExprSpec MatchSpec MatchModel PureSpec.
Import ListNotations.

(** Names of wrappers (pure.py 30-100): user variables and generated ones. *)
Inductive wname : Type := User (x : nat) | Tmp (k : nat).

(** Right-hand sides: a Python expression, BinOpWrapper (103-110), SubjectVarRef
    (128-134), MatchPatternExpr (113-125). *)
Inductive wsrc : Type :=
| FromExpr (e : pexpr)
| FromAug (o : aop) (e : pexpr)
| FromSubject (k : nat)
| FromPattern (k : nat) (p : pattern) (g : option pexpr).

(** CondWrapper (true) / NotWrapper (false) of a condition variable. *)
Definition conds := list (bool * nat).

Inductive wrapper : Type :=
| WAssign (x : wname) (cs : conds) (src : wsrc)
| WReturn (cs : conds) (e : pexpr)
| WAssert (cs : conds) (e : pexpr).

(** _collect_pure_match_captures, 273-286 (and _collect_match_guard_capture_names,
    288-297, which yields the same names); [None]: UnsupportedException. *)
Fixpoint collect_captures (p : pattern) : option (list nat) :=
  match p with
  | PCap x => Some [x]
  | PAs p x => match collect_captures p with Some xs => Some (x :: xs) | None => None end
  | PClass _ kws => match kws with [] => Some [] | _ => None end
  | _ => Some []
  end.

(** translate_pure_If 174-195, _Return 197-204, _AugAssign 206-214, _Assign
    216-225, _AnnAssign 227-235, _Match 237-271, _Expr (Assert) 156-172.  [k] is
    the number of the next generated variable. *)
Fixpoint tr_stmt (k : nat) (cs : conds) (c : pstmt) {struct c} : option (list wrapper * nat) :=
  match c with
  | SAssign x e => Some ([WAssign (User x) cs (FromExpr e)], k)
  | SAug x o e => Some ([WAssign (User x) cs (FromAug o e)], k)
  | SReturn e => Some ([WReturn cs e], k)
  | SAssert e => Some ([WAssert cs e], k)
  | SIf t b1 b2 =>
      match tr_stmts (S k) (cs ++ [(true, k)]) b1 with
      | Some (w1, k1) =>
          match tr_stmts k1 (cs ++ [(false, k)]) b2 with
          | Some (w2, k2) => Some (WAssign (Tmp k) cs (FromExpr t) :: w1 ++ w2, k2)
          | None => None
          end
      | None => None
      end
  | SMatch e ks =>
      match tr_pcases (S k) cs k ks with
      | Some (w, k') => Some (WAssign (Tmp k) cs (FromExpr e) :: w, k')
      | None => None
      end
  end
with tr_stmts (k : nat) (cs : conds) (ss : pstmts) {struct ss} : option (list wrapper * nat) :=
  match ss with
  | SNil => Some ([], k)
  | SCons c ss' =>
      match tr_stmt k cs c with
      | Some (w1, k1) => match tr_stmts k1 cs ss' with
                         | Some (w2, k2) => Some (w1 ++ w2, k2)
                         | None => None end
      | None => None
      end
  end
with tr_pcases (k : nat) (prev : conds) (subj : nat) (ks : pcases) {struct ks} :
  option (list wrapper * nat) :=
  match ks with
  | KNil => Some ([], k)
  | KCons p g b ks' =>
      match collect_captures p with
      | None => None
      | Some xs =>
          let cc := prev ++ [(true, k)] in
          match tr_stmts (S k) cc b with
          | Some (w1, k1) =>
              match tr_pcases k1 (prev ++ [(false, k)]) subj ks' with
              | Some (w2, k2) =>
                  Some (WAssign (Tmp k) prev (FromPattern subj p g)
                        :: map (fun x => WAssign (User x) cc (FromSubject subj)) xs ++ w1 ++ w2, k2)
              | None => None
              end
          | None => None
          end
      end
  end.

(** Viper expressions. *)
Inductive texp : Type :=
| TVal (v : val)
| TVar (t : nat)
| TParam (x : nat)
| TUnbound (x : nat)
| TChecked (x : nat) (a : texp)
| TAssuming (x : nat) (a : texp)
| TApp1 (f : nat) (a : texp)
| TApp2 (f : nat) (a b : texp)
| TCond (c a b : texp)
| TToBool (a : texp)
| TNot (a : texp)
| TAnd (a b : texp)
| TArith (o : aop) (a b : texp)
| TPattern (t : nat) (p : pattern)
| TLet (t : nat) (a b : texp)
| TAsserting (a b : texp)
| TFail.

(** Viper variables of the names ([wrapper.names], 546-562). *)
Record names : Type := { un : nat -> option nat; tn : nat -> option nat }.
Definition no_names : names := {| un := fun _ => None; tn := fun _ => None |}.
Definition set_name (N : names) (x : wname) (t : nat) : names :=
  match x with
  | User y => {| un := fun z => if Nat.eqb y z then Some t else un N z; tn := tn N |}
  | Tmp k => {| un := un N; tn := fun z => if Nat.eqb k z then Some t else tn N z |}
  end.

(** translate_Name (expression.py 948-995) in a pure function: aliases first;
    parameters are read directly, local variables with a definedness check.
    [al]: names aliased to another variable in a guard (pure.py 489-493); the
    name of that variable differs from the identifier, hence no check. *)
Definition tr_name (params : list nat) (N : names) (al : list (nat * nat)) (x : nat) : texp :=
  match find (fun a => Nat.eqb x (fst a)) al with
  | Some (_, t) => TVar t
  | None =>
      match un N x with
      | Some t => if mem x params then TVar t else TChecked x (TVar t)
      | None => if mem x params then TParam x else TChecked x (TUnbound x)
      end
  end.

Fixpoint tr_expr (params : list nat) (N : names) (al : list (nat * nat)) (e : pexpr) : texp :=
  match e with
  | XVal v => TVal v
  | XVar x => tr_name params N al x
  | XApp1 f a => TApp1 f (tr_expr params N al a)
  | XApp2 f a b => TApp2 f (tr_expr params N al a) (tr_expr params N al b)
  | XIf c a b => TCond (TToBool (tr_expr params N al c)) (tr_expr params N al a) (tr_expr params N al b)
  end.

(** _translate_condition, 583-612: a left-nested conjunction starting from true.
    [None]: a condition variable without name (AttributeError). *)
Fixpoint tr_conds (N : names) (acc : texp) (cs : conds) : option texp :=
  match cs with
  | [] => Some acc
  | (b, k) :: cs' =>
      match tn N k with
      | Some t => tr_conds N (TAnd acc (if b then TToBool (TVar t) else TNot (TToBool (TVar t)))) cs'
      | None => None
      end
  end.

(** _translate_wrapper_expr, 459-506.  [None]: KeyError. *)
Definition tr_src (params : list nat) (N : names) (x : wname) (src : wsrc) : option texp :=
  match src with
  | FromExpr e => Some (tr_expr params N [] e)
  | FromAug o e =>
      match x with
      | User y => match un N y with
                  | Some t => Some (TArith o (TVar t) (tr_expr params N [] e))
                  | None => None
                  end
      | Tmp _ => None
      end
  | FromSubject k => match tn N k with Some t => Some (TVar t) | None => None end
  | FromPattern k p g =>
      match tn N k with
      | None => None
      | Some t =>
          match g with
          | None => Some (TPattern t p)
          | Some e =>
              let al := match collect_captures p with
                        | Some xs => map (fun y => (y, t)) xs | None => [] end in
              Some (TAnd (TPattern t p) (TToBool (tr_expr params N al e)))
          end
      end
  end.

Inductive terr : Type := DeadCode | ReturnMissing | Crash.

(** _translate_return_wrapper 299-334, _translate_assign_wrapper 349-398,
    _translate_assert_wrapper 428-457. *)
Definition tr_wrapper (params : list nat) (N : names) (t : nat) (w : wrapper) (prev : option texp) :
  terr + texp :=
  match w with
  | WReturn cs e =>
      let v := tr_expr params N [] e in
      match cs with
      | [] => match prev with Some _ => inl DeadCode | None => inr v end
      | _ => match tr_conds N (TVal (VBool true)) cs with
             | None => inl Crash
             | Some c => inr (TCond c v (match prev with Some b => b | None => TFail end))
             end
      end
  | WAssign x cs src =>
      match tr_src params N x src with
      | None => inl Crash
      | Some v0 =>
          let v := match x with
                   | User y => TAssuming y v0
                   | Tmp _ => v0
                   end in
          match prev with
          | None => inl ReturnMissing
          | Some b =>
              match cs with
              | [] => inr (TLet t v b)
              | _ => match tr_conds N (TVal (VBool true)) cs with
                     | None => inl Crash
                     | Some c =>
                         let old := match x with
                                    | User y => match un N y with Some t0 => TVar t0 | None => TVal VNone end
                                    | Tmp k => match tn N k with Some t0 => TVar t0 | None => TVal VNone end
                                    end in
                         inr (TLet t (TCond c v old) b)
                     end
              end
          end
      end
  | WAssert cs e =>
      match prev with
      | None => inl ReturnMissing
      | Some b =>
          let a := TToBool (tr_expr params N [] e) in
          match cs with
          | [] => inr (TAsserting a b)
          | _ => match tr_conds N (TVal (VBool true)) cs with
                 | None => inl Crash
                 | Some c => inr (TCond c (TAsserting a b) b)
                 end
          end
      end
  end.

(** _collect_names (524-549: every assignment gets a new variable, visible to all
    later wrappers) and the reversed walk of translate_exprs (572-577).  [t]: the
    number of the next Viper variable. *)
Fixpoint build (params : list nat) (N : names) (t : nat) (ws : list wrapper) : terr + option texp :=
  match ws with
  | [] => inr None
  | w :: ws' =>
      let rest := match w with
                  | WAssign x _ _ => build params (set_name N x t) (S t) ws'
                  | _ => build params N t ws'
                  end in
      match rest with
      | inl e => inl e
      | inr prev => match tr_wrapper params N t w prev with
                    | inl e => inl e
                    | inr b => inr (Some b)
                    end
      end
  end.

(** translate_exprs, 558-580.  [None]: an UnsupportedException; [inr None]: the
    function gets no body. *)
Definition tr_body (params : list nat) (body : pstmts) : option (terr + option texp) :=
  match tr_stmts 0 [] body with
  | Some (ws, _) => Some (build params no_names 0 ws)
  | None => None
  end.

(** * Viper's meaning.  [r]: values of the let-bound variables; [D]: the names for
    which definedness is known; [None]: some check (definedness, operation
    precondition, assertion) fails.  [TPattern t p] stands for the condition
    generated by the shared pattern translation ([MatchModel.tr_cond]). *)
Definition tset {A} (r : nat -> A) (t : nat) (v : A) : nat -> A := fun s => if Nat.eqb t s then v else r s.

Fixpoint teval (W : world) (args : nat -> val) (r : nat -> val) (D : nat -> bool) (e : texp) :
  option (val * (nat -> bool)) :=
  match e with
  | TVal v => Some (v, D)
  | TVar t => Some (r t, D)
  | TParam x => Some (args x, D)
  | TUnbound x => Some (VNone, D)
  | TChecked x a => if D x then teval W args r D a else None
  | TAssuming x a => match teval W args r D a with
                     | Some (v, D') => Some (v, tset D' x true)
                     | None => None end
  | TApp1 f a => match teval W args r D a with
                 | Some (v, D') => match op1 W f v with Some u => Some (u, D') | None => None end
                 | None => None end
  | TApp2 f a b =>
      match teval W args r D a with
      | Some (v, D') => match teval W args r D' b with
                        | Some (w, D'') => match op2 W f v w with Some u => Some (u, D'') | None => None end
                        | None => None end
      | None => None end
  | TCond c a b => match teval W args r D c with
                   | Some (v, D') => if truthy v then teval W args r D' a else teval W args r D' b
                   | None => None end
  | TToBool a => match teval W args r D a with
                 | Some (v, D') => Some (VBool (truthy v), D') | None => None end
  | TNot a => match teval W args r D a with
              | Some (v, D') => Some (VBool (negb (truthy v)), D') | None => None end
  | TAnd a b => match teval W args r D a with
                | Some (v, D') => if truthy v then teval W args r D' b else Some (VBool false, D')
                | None => None end
  | TArith o a b =>
      match teval W args r D a with
      | Some (v, D') => match teval W args r D' b with
                        | Some (w, D'') => match int_of v, int_of w with
                                           | Some x, Some y => Some (VInt (arith o x y), D'')
                                           | _, _ => None end
                        | None => None end
      | None => None end
  | TPattern t p =>
      match cond_val (w_classes W) (w_heap W) (r t) (fun _ => VNone) (tr_cond p Subj) with
      | Some b => Some (VBool b, D)
      | None => None end
  | TLet t a b => match teval W args r D a with
                  | Some (v, D') => teval W args (tset r t v) D' b
                  | None => None end
  | TAsserting a b => match teval W args r D a with
                      | Some (v, D') => if truthy v then teval W args r D' b else None
                      | None => None end
  | TFail => None
  end.

(** The value of the generated function body for given arguments. *)
Definition viper_call (W : world) (args : nat -> val) (b : texp) : option val :=
  match teval W args (fun _ => VNone) (fun _ => false) b with Some (v, _) => Some v | None => None end.
