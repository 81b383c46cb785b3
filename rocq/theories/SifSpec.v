(** What "no branch depends on a secret" means: a small Python-like language,
    its runs, and the sequence of decisions a run makes.  This file knows
    nothing about the translation. *)
From Coq Require Import List ZArith Bool Arith.
Import ListNotations.

(** Values: integers, objects (class, identity) and lists of integers. *)
Inductive value : Type :=
| VInt (z : Z)
| VObj (c id : nat)
| VSeq (l : list Z).

(** Python's truth value. *)
Definition truth (v : value) : bool :=
  match v with
  | VInt z => negb (z =? 0)%Z
  | VObj _ _ => true
  | VSeq l => match l with [] => false | _ => true end
  end.

(** type(v): class 0 is int, class 1 is list, other numbers are user classes. *)
Definition cls (v : value) : nat :=
  match v with VInt _ => 0 | VSeq _ => 1 | VObj c _ => c end.

Definition elems (v : value) : list Z :=
  match v with VSeq l => l | _ => [] end.

(** Bodies of pure functions: tests and results in terms of the argument. *)
Inductive pbody : Type :=
| PRet (f : value -> value)
| PIf (test : value -> bool) (a b : pbody).

Inductive expr : Type :=
| EVar (x : nat)
| EInt (z : Z)
| EOp (o : value -> value -> value) (a b : expr)        (** operators on built-in values *)
| EIf (c a b : expr)                                    (** a if c else b *)
| EBool (isand : bool) (e : expr) (es : exprs)          (** e and ... / e or ... *)
| ECmp (o1 o2 : value -> value -> bool) (a b c : expr)  (** a o1 b o2 c *)
| ECall (f : nat) (args : exprs)                        (** impure function *)
| EMeth (m : nat) (r : expr) (args : exprs)             (** r.m(args), impure method *)
| EDunder (m : nat) (r a : expr)                        (** operator implemented by the class of r *)
| EPure (p : pbody) (e : expr)                          (** call of a pure function *)
| EComp (f : Z -> Z) (e : expr)                         (** [f(x) for x in e] *)
| EFilter (p : Z -> bool) (f : Z -> Z) (e : expr)       (** [f(x) for x in e if p(x)] *)
with exprs : Type :=
| ENil
| ECons (e : expr) (es : exprs).

Inductive stmt : Type :=
| SSkip
| SSeq (a b : stmt)
| SAssign (x : nat) (e : expr)
| SExpr (e : expr)
| SIf (e : expr) (a b : stmt)
| SWhile (e : expr) (lows : list expr) (body : stmt)    (** lows: Invariant(Low(bool(l))) for each l *)
| SFor (x : nat) (e : expr) (body : stmt)
| SMatch (e : expr) (cs : cases)
| SRaise (e : expr)
| STry (body : stmt) (catches : nat -> bool) (handler : stmt)
| SFinally (body fin : stmt)
| SReturn (e : expr)
| SBreak
| SContinue
with cases : Type :=
| CNil
| CCons (test : value -> bool) (body : stmt) (cs : cases).

(** The decisions of a run that determine which code is executed. *)
Inductive event : Type :=
| EvIf (b : bool)       (** a test was true or false, or a loop went on or not *)
| EvCall (f : nat)      (** function f was called *)
| EvClass (c : nat)     (** a method of class c was selected *)
| EvExc (c : nat).      (** an exception of class c was raised *)

(** What the environment returns from the k-th call, given callee and arguments. *)
Definition world := nat -> nat -> list value -> value.

Definition store := nat -> value.
Definition upd (s : store) (x : nat) (v : value) : store :=
  fun y => if y =? x then v else s y.

Fixpoint peval (p : pbody) (v : value) : value * list event :=
  match p with
  | PRet f => (f v, [])
  | PIf t a b =>
      let '(r, tr) := peval (if t v then a else b) v in (r, EvIf (t v) :: tr)
  end.

Definition of_bool (b : bool) : value := VInt (if b then 1 else 0)%Z.

(** Evaluation of an expression: value, number of calls so far, decisions. *)
Fixpoint eval (w : world) (s : store) (e : expr) (k : nat) : value * nat * list event :=
  match e with
  | EVar x => (s x, k, [])
  | EInt z => (VInt z, k, [])
  | EOp o a b =>
      let '(va, k1, t1) := eval w s a k in
      let '(vb, k2, t2) := eval w s b k1 in
      (o va vb, k2, t1 ++ t2)
  | EIf c a b =>
      let '(vc, k1, t1) := eval w s c k in
      let '(v, k2, t2) := if truth vc then eval w s a k1 else eval w s b k1 in
      (v, k2, t1 ++ EvIf (truth vc) :: t2)
  | EBool isand e es =>
      let '(v, k1, t1) := eval w s e k in
      let '(v2, k2, t2) := evalb w s isand v es k1 in
      (v2, k2, t1 ++ t2)
  | ECmp o1 o2 a b c =>
      let '(va, k1, t1) := eval w s a k in
      let '(vb, k2, t2) := eval w s b k1 in
      if o1 va vb then
        let '(vc, k3, t3) := eval w s c k2 in
        (of_bool (o2 vb vc), k3, t1 ++ t2 ++ EvIf true :: t3)
      else (of_bool false, k2, t1 ++ t2 ++ [EvIf false])
  | ECall f args =>
      let '(vs, k1, t1) := evals w s args k in
      (w k1 f vs, S k1, t1 ++ [EvCall f])
  | EMeth m r args =>
      let '(vr, k1, t1) := eval w s r k in
      let '(vs, k2, t2) := evals w s args k1 in
      (w k2 m (vr :: vs), S k2, t1 ++ t2 ++ [EvClass (cls vr); EvCall m])
  | EDunder m r a =>
      let '(vr, k1, t1) := eval w s r k in
      let '(va, k2, t2) := eval w s a k1 in
      (w k2 m [vr; va], S k2, t1 ++ t2 ++ [EvClass (cls vr); EvCall m])
  | EPure p e =>
      let '(v, k1, t1) := eval w s e k in
      let '(r, t2) := peval p v in
      (r, k1, t1 ++ t2)
  | EComp f e =>
      let '(v, k1, t1) := eval w s e k in
      (VSeq (map f (elems v)), k1, t1 ++ map (fun _ => EvIf true) (elems v) ++ [EvIf false])
  | EFilter p f e =>
      let '(v, k1, t1) := eval w s e k in
      (VSeq (map f (filter p (elems v))), k1,
       t1 ++ flat_map (fun z => [EvIf true; EvIf (p z)]) (elems v) ++ [EvIf false])
  end
with evals (w : world) (s : store) (es : exprs) (k : nat) : list value * nat * list event :=
  match es with
  | ENil => ([], k, [])
  | ECons e es =>
      let '(v, k1, t1) := eval w s e k in
      let '(vs, k2, t2) := evals w s es k1 in
      (v :: vs, k2, t1 ++ t2)
  end
(** The operands of and / or after the first one, whose value is v. *)
with evalb (w : world) (s : store) (isand : bool) (v : value) (es : exprs) (k : nat)
  : value * nat * list event :=
  match es with
  | ENil => (v, k, [])
  | ECons e es =>
      if Bool.eqb (truth v) isand then
        let '(v1, k1, t1) := eval w s e k in
        let '(v2, k2, t2) := evalb w s isand v1 es k1 in
        (v2, k2, EvIf (truth v) :: t1 ++ t2)
      else (v, k, [EvIf (truth v)])
  end.

(** How a statement ends.  [Out]: a loop was cut off after n executions of its body. *)
Inductive mode : Type :=
| Go | Ret (v : value) | Exc (c : nat) | Brk | Cont | Out.

Definition result := (mode * store * nat * list event)%type.

Fixpoint wloop (w : world) (e : expr) (body : store -> nat -> result)
    (n : nat) (s : store) (k : nat) : result :=
  let '(v, k1, t1) := eval w s e k in
  if truth v then
    match n with
    | O => (Out, s, k1, t1 ++ [EvIf true])
    | S m =>
        let '(md, s2, k2, t2) := body s k1 in
        match md with
        | Go | Cont =>
            let '(md3, s3, k3, t3) := wloop w e body m s2 k2 in
            (md3, s3, k3, t1 ++ EvIf true :: t2 ++ t3)
        | Brk => (Go, s2, k2, t1 ++ EvIf true :: t2)
        | _ => (md, s2, k2, t1 ++ EvIf true :: t2)
        end
    end
  else (Go, s, k1, t1 ++ [EvIf false]).

Fixpoint floop (x : nat) (body : store -> nat -> result)
    (l : list Z) (n : nat) (s : store) (k : nat) : result :=
  match l with
  | [] => (Go, s, k, [EvIf false])
  | z :: l =>
      let s1 := upd s x (VInt z) in
      match n with
      | O => (Out, s1, k, [EvIf true])
      | S m =>
          let '(md, s2, k2, t2) := body s1 k in
          match md with
          | Go | Cont =>
              let '(md3, s3, k3, t3) := floop x body l m s2 k2 in
              (md3, s3, k3, EvIf true :: t2 ++ t3)
          | Brk => (Go, s2, k2, EvIf true :: t2)
          | _ => (md, s2, k2, EvIf true :: t2)
          end
      end
  end.

(** A run, in which every loop executes its body at most n times. *)
Fixpoint run (n : nat) (w : world) (st : stmt) (s : store) (k : nat) : result :=
  match st with
  | SSkip => (Go, s, k, [])
  | SSeq a b =>
      let '(md, s1, k1, t1) := run n w a s k in
      match md with
      | Go => let '(md2, s2, k2, t2) := run n w b s1 k1 in (md2, s2, k2, t1 ++ t2)
      | _ => (md, s1, k1, t1)
      end
  | SAssign x e => let '(v, k1, t1) := eval w s e k in (Go, upd s x v, k1, t1)
  | SExpr e => let '(v, k1, t1) := eval w s e k in (Go, s, k1, t1)
  | SIf e a b =>
      let '(v, k1, t1) := eval w s e k in
      let '(md, s2, k2, t2) := if truth v then run n w a s k1 else run n w b s k1 in
      (md, s2, k2, t1 ++ EvIf (truth v) :: t2)
  | SWhile e _ body => wloop w e (fun s k => run n w body s k) n s k
  | SFor x e body =>
      let '(v, k1, t1) := eval w s e k in
      let '(md, s2, k2, t2) := floop x (fun s k => run n w body s k) (elems v) n s k1 in
      (md, s2, k2, t1 ++ t2)
  | SMatch e cs =>
      let '(v, k1, t1) := eval w s e k in
      let '(md, s2, k2, t2) := runc n w v cs s k1 in
      (md, s2, k2, t1 ++ t2)
  | SRaise e =>
      let '(v, k1, t1) := eval w s e k in (Exc (cls v), s, k1, t1 ++ [EvExc (cls v)])
  | STry body p h =>
      let '(md, s1, k1, t1) := run n w body s k in
      match md with
      | Exc c =>
          if p c then
            let '(md2, s2, k2, t2) := run n w h s1 k1 in
            (md2, s2, k2, t1 ++ EvIf true :: t2)
          else (md, s1, k1, t1 ++ [EvIf false])
      | _ => (md, s1, k1, t1)
      end
  | SFinally body f =>
      let '(md, s1, k1, t1) := run n w body s k in
      match md with
      | Out => (md, s1, k1, t1)
      | _ =>
          let '(md2, s2, k2, t2) := run n w f s1 k1 in
          (match md2 with Go => md | _ => md2 end, s2, k2, t1 ++ t2)
      end
  | SReturn e => let '(v, k1, t1) := eval w s e k in (Ret v, s, k1, t1)
  | SBreak => (Brk, s, k, [])
  | SContinue => (Cont, s, k, [])
  end
with runc (n : nat) (w : world) (v : value) (cs : cases) (s : store) (k : nat) : result :=
  match cs with
  | CNil => (Go, s, k, [])
  | CCons p b cs =>
      if p v then
        let '(md, s2, k2, t2) := run n w b s k in (md, s2, k2, EvIf true :: t2)
      else
        let '(md, s2, k2, t2) := runc n w v cs s k in (md, s2, k2, EvIf false :: t2)
  end.

Definition trace (r : result) : list event := snd r.
Definition ending (r : result) : mode := fst (fst (fst r)).

(** Two runs end in the same way (the returned values may differ). *)
Definition same_ending (a b : mode) : Prop :=
  match a, b with
  | Go, Go | Brk, Brk | Cont, Cont | Out, Out | Ret _, Ret _ => True
  | Exc c, Exc d => c = d
  | _, _ => False
  end.

(** The claim about a program, given a test [accepted n w1 w2 s1 s2] saying that
    the verifier finds no violation in the pair of runs: whatever the two
    environments and the two initial stores are, equal decisions are made. *)
Definition same_decisions (n : nat) (st : stmt) (w1 w2 : world) (s1 s2 : store) : Prop :=
  trace (run n w1 st s1 0) = trace (run n w2 st s2 0) /\
  same_ending (ending (run n w1 st s1 0)) (ending (run n w2 st s2 0)).

(** ** The programs for which the mode is claimed to be right. *)

Definition test_free (p : pbody) : Prop :=
  match p with PRet _ => True | PIf _ _ _ => False end.

(** Expressions without comparison chains, without comprehensions that filter,
    without operators implemented by user classes, and without calls of pure functions that branch; with [strict] also
    without [and] and [or]. *)
Fixpoint good_expr (strict : bool) (e : expr) : Prop :=
  match e with
  | EVar _ | EInt _ => True
  | EOp _ a b => good_expr strict a /\ good_expr strict b
  | EIf c a b => good_expr strict c /\ good_expr strict a /\ good_expr strict b
  | EBool _ e es => strict = false /\ good_expr strict e /\ good_exprs strict es
  | ECmp _ _ _ _ _ | EDunder _ _ _ | EFilter _ _ _ => False
  | ECall _ args => good_exprs strict args
  | EMeth _ r args => good_expr strict r /\ good_exprs strict args
  | EPure p e => test_free p /\ good_expr strict e
  | EComp _ e => good_expr strict e
  end
with good_exprs (strict : bool) (es : exprs) : Prop :=
  match es with
  | ENil => True
  | ECons e es => good_expr strict e /\ good_exprs strict es
  end.

(** No [continue] that belongs to the enclosing loop. *)
Fixpoint no_continue (s : stmt) : Prop :=
  match s with
  | SContinue => False
  | SSeq a b | SIf _ a b | STry a _ b | SFinally a b => no_continue a /\ no_continue b
  | SMatch _ cs => no_continue_c cs
  | _ => True
  end
with no_continue_c (cs : cases) : Prop :=
  match cs with
  | CNil => True
  | CCons _ b cs => no_continue b /\ no_continue_c cs
  end.

(** Statements without match, whose while loops have the condition among their
    Low invariants (with [strict]: as their only Low invariant) and whose for
    loops contain no [continue]. *)
Fixpoint good (strict : bool) (s : stmt) : Prop :=
  match s with
  | SSkip | SBreak | SContinue => True
  | SSeq a b | STry a _ b | SFinally a b => good strict a /\ good strict b
  | SAssign _ e | SExpr e | SRaise e | SReturn e => good_expr strict e
  | SIf e a b => good_expr strict e /\ good strict a /\ good strict b
  | SWhile e lows b =>
      good_expr strict e /\ (if strict then lows = [e] else In e lows) /\ good strict b
  | SFor _ e b => good_expr strict e /\ good strict b /\ no_continue b
  | SMatch _ _ => False
  end.
