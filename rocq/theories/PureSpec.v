(** Python's execution of the bodies of functions marked [@Pure] (independent of
    the translation): assignments, augmented assignments, [if], [match],
    assertions and returns. *)
From Coq Require Import List Bool Arith ZArith.
From Verif Require Import ExprSpec MatchSpec.
Import ListNotations.

(** Expressions: constants, local variables and parameters, operations (partial:
    they may raise), conditional expressions. *)
Inductive pexpr : Type :=
| XVal (v : val)
| XVar (x : nat)
| XApp1 (f : nat) (a : pexpr)
| XApp2 (f : nat) (a b : pexpr)
| XIf (c a b : pexpr).

Inductive aop : Type := OAdd | OSub | OMul.

Inductive pstmt : Type :=
| SAssign (x : nat) (e : pexpr)
| SAug (x : nat) (o : aop) (e : pexpr)
| SReturn (e : pexpr)
| SAssert (e : pexpr)
| SIf (t : pexpr) (b1 b2 : pstmts)
| SMatch (e : pexpr) (cs : pcases)
with pstmts : Type :=
| SNil
| SCons (s : pstmt) (ss : pstmts)
with pcases : Type :=
| KNil
| KCons (p : pattern) (g : option pexpr) (b : pstmts) (cs : pcases).

(** The program's operations, classes and heap (no statement changes the heap). *)
Record world : Type := {
  op1 : nat -> val -> option val;
  op2 : nat -> val -> val -> option val;
  w_classes : classes;
  w_heap : heap;
  (** [x += y] etc. on operands that are not both ints (or bools) *)
  aug_other : aop -> val -> val -> option val
}.

(** [None]: the variable is not bound. *)
Definition store := nat -> option val.
Definition sset (s : store) (x : nat) (v : val) : store :=
  fun y => if Nat.eqb x y then Some v else s y.

Fixpoint py_expr (W : world) (s : store) (e : pexpr) : option val :=
  match e with
  | XVal v => Some v
  | XVar x => s x
  | XApp1 f a => match py_expr W s a with Some v => op1 W f v | None => None end
  | XApp2 f a b =>
      match py_expr W s a with
      | Some v => match py_expr W s b with Some w => op2 W f v w | None => None end
      | None => None
      end
  | XIf c a b =>
      match py_expr W s c with
      | Some v => if truthy v then py_expr W s a else py_expr W s b
      | None => None
      end
  end.

Definition int_of (v : val) : option Z :=
  match v with VInt z => Some z | VBool b => Some (if b then 1%Z else 0%Z) | _ => None end.
Definition arith (o : aop) (a b : Z) : Z :=
  match o with OAdd => a + b | OSub => a - b | OMul => a * b end%Z.
Definition py_aug (W : world) (o : aop) (v w : val) : option val :=
  match int_of v, int_of w with
  | Some a, Some b => Some (VInt (arith o a b))
  | _, _ => aug_other W o v w
  end.

Inductive outcome : Type :=
| ORet (v : val)
| OErr
| OFall (s : store).

Definition sbind (s : store) (bs : list (nat * val)) : store :=
  fold_left (fun s b => sset s (fst b) (snd b)) bs s.

Fixpoint py_stmt (W : world) (s : store) (c : pstmt) {struct c} : outcome :=
  match c with
  | SAssign x e => match py_expr W s e with Some v => OFall (sset s x v) | None => OErr end
  | SAug x o e =>
      match s x, py_expr W s e with
      | Some v, Some w => match py_aug W o v w with Some u => OFall (sset s x u) | None => OErr end
      | _, _ => OErr
      end
  | SReturn e => match py_expr W s e with Some v => ORet v | None => OErr end
  | SAssert e => match py_expr W s e with
                 | Some v => if truthy v then OFall s else OErr
                 | None => OErr end
  | SIf t b1 b2 => match py_expr W s t with
                   | Some v => if truthy v then py_stmts W s b1 else py_stmts W s b2
                   | None => OErr end
  | SMatch e cs => match py_expr W s e with Some v => py_pcases W s v cs | None => OErr end
  end
with py_stmts (W : world) (s : store) (cs : pstmts) {struct cs} : outcome :=
  match cs with
  | SNil => OFall s
  | SCons c cs' => match py_stmt W s c with OFall s' => py_stmts W s' cs' | r => r end
  end
with py_pcases (W : world) (s : store) (v : val) (cs : pcases) {struct cs} : outcome :=
  match cs with
  | KNil => OFall s
  | KCons p g b cs' =>
      match py_match (w_classes W) (w_heap W) p v with
      | None => py_pcases W s v cs'
      | Some bs =>
          let s' := sbind s bs in
          match g with
          | None => py_stmts W s' b
          | Some e => match py_expr W s' e with
                      | Some u => if truthy u then py_stmts W s' b else py_pcases W s' v cs'
                      | None => OErr
                      end
          end
      end
  end.

(** Calling the function: [params] are bound to [args], everything else is
    unbound.  [None]: the call does not return a value through a [return]
    (exception, failed assertion, or the end of the body is reached). *)
Definition entry (params : list nat) (args : nat -> val) : store :=
  fun x => if existsb (Nat.eqb x) params then Some (args x) else None.
Definition py_call (W : world) (params : list nat) (args : nat -> val) (body : pstmts) : option val :=
  match py_stmts W (entry params args) body with ORet v => Some v | _ => None end.

(** * Static conditions *)

Fixpoint xreads (e : pexpr) : list nat :=
  match e with
  | XVal _ => []
  | XVar x => [x]
  | XApp1 _ a => xreads a
  | XApp2 _ a b => xreads a ++ xreads b
  | XIf c a b => xreads c ++ xreads a ++ xreads b
  end.
Definition mem (x : nat) (xs : list nat) : bool := existsb (Nat.eqb x) xs.
Definition minus (xs ys : list nat) : list nat := filter (fun x => negb (mem x ys)) xs.
Definition avoids (e : pexpr) (st : list nat) : bool := forallb (fun x => negb (mem x st)) (xreads e).

(** [stale]: names that a case with a failed guard has bound since.  They must
    not be read before they are assigned again.  [stale_after] is the set after
    a statement, [no_stale_read] the condition. *)
Fixpoint stale_after (st : list nat) (c : pstmt) : list nat :=
  match c with
  | SAssign x _ | SAug x _ _ => minus st [x]
  | SReturn _ | SAssert _ => st
  | SIf _ b1 b2 => stale_afters st b1 ++ stale_afters st b2
  | SMatch _ cs => stale_cases st cs
  end
with stale_afters (st : list nat) (cs : pstmts) : list nat :=
  match cs with SNil => st | SCons c cs' => stale_afters (stale_after st c) cs' end
with stale_cases (st : list nat) (cs : pcases) : list nat :=
  match cs with
  | KNil => st
  | KCons p g b cs' =>
      stale_afters (minus st (captures p)) b ++
      stale_cases (match g with None => st | Some _ => st ++ captures p end) cs'
  end.

Fixpoint no_stale_read (st : list nat) (c : pstmt) : bool :=
  match c with
  | SAssign _ e | SReturn e | SAssert e => avoids e st
  | SAug x _ e => negb (mem x st) && avoids e st
  | SIf t b1 b2 => avoids t st && no_stale_reads st b1 && no_stale_reads st b2
  | SMatch e cs => avoids e st && no_stale_cases st cs
  end
with no_stale_reads (st : list nat) (cs : pstmts) : bool :=
  match cs with
  | SNil => true
  | SCons c cs' => no_stale_read st c && no_stale_reads (stale_after st c) cs'
  end
with no_stale_cases (st : list nat) (cs : pcases) : bool :=
  match cs with
  | KNil => true
  | KCons p g b cs' =>
      (match g with None => true | Some e => avoids e (minus st (captures p)) end) &&
      no_stale_reads (minus st (captures p)) b &&
      no_stale_cases (match g with None => st | Some _ => st ++ captures p end) cs'
  end.

(** Parameters are assigned in a branch ([if]/[match]) only if some statement
    before it already assigned them.  [seen]: names assigned so far (in program
    order). *)
Fixpoint assigned (c : pstmt) : list nat :=
  match c with
  | SAssign x _ | SAug x _ _ => [x]
  | SReturn _ | SAssert _ => []
  | SIf _ b1 b2 => assigneds b1 ++ assigneds b2
  | SMatch _ cs => assigned_cases cs
  end
with assigneds (cs : pstmts) : list nat :=
  match cs with SNil => [] | SCons c cs' => assigned c ++ assigneds cs' end
with assigned_cases (cs : pcases) : list nat :=
  match cs with
  | KNil => []
  | KCons p _ b cs' => captures p ++ assigneds b ++ assigned_cases cs'
  end.

Definition params_kept (params seen : list nat) (xs : list nat) : bool :=
  forallb (fun x => negb (mem x params) || mem x seen) xs.

Fixpoint params_ok (params seen : list nat) (cs : pstmts) : bool :=
  match cs with
  | SNil => true
  | SCons c cs' =>
      match c with
      | SIf _ _ _ | SMatch _ _ => params_kept params seen (assigned c)
      | _ => true
      end && params_ok params (seen ++ assigned c) cs'
  end.

(** Patterns: distinct names, no captures below or-patterns, attributes only of
    objects. *)
Fixpoint pats_ok (C : classes) (c : pstmt) : Prop :=
  match c with
  | SIf _ b1 b2 => pats_oks C b1 /\ pats_oks C b2
  | SMatch _ cs => pats_cases C cs
  | _ => True
  end
with pats_oks (C : classes) (cs : pstmts) : Prop :=
  match cs with SNil => True | SCons c cs' => pats_ok C c /\ pats_oks C cs' end
with pats_cases (C : classes) (cs : pcases) : Prop :=
  match cs with
  | KNil => True
  | KCons p _ b cs' => (NoDup (captures p) /\ or_free p = true /\ kws_ok C p) /\
                       pats_oks C b /\ pats_cases C cs'
  end.
