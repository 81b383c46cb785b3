(** Python's evaluation of expressions and assignments (independent of the
    translation).

    This file fixes the abstract syntax of the Python subset and its reference
    semantics: operands from left to right, every operand once, [and]/[or] and
    comparison chains stop as soon as the outcome is known, and the right-hand
    side of an assignment is evaluated once before any target is written.  It
    knows nothing about Viper. *)
From Coq Require Import List ZArith Bool Arith.
Import ListNotations.

(** Values: ints, bools, [None], object references and sequences (tuples, or
    lists with a known content). *)
Inductive val : Type :=
| VInt (z : Z)
| VBool (b : bool)
| VNone
| VRef (r : nat)
| VSeq (vs : list val).

(** Python's truth value of an object (objects without [__bool__] are true). *)
Definition truthy (v : val) : bool :=
  match v with
  | VInt z => negb (Z.eqb z 0)
  | VBool b => b
  | VNone => false
  | VRef _ => true
  | VSeq vs => match vs with [] => false | _ => true end
  end.

Definition locals := nat -> val.
(** heap: object -> attribute -> value *)
Definition heap := nat -> nat -> val.

(** Expressions.  [EFun] is an application of an operation without side
    effects (operators of the built-in types, functions marked [@Pure],
    subscripts, ...); [ECall] is a call that may change the heap and may raise;
    [EBool true] is [and], [EBool false] is [or]; [ECmp e rest] is a comparison
    chain [e op1 e1 op2 e2 ...]. *)
Inductive expr : Type :=
| EConst (v : val)
| EVar (x : nat)
| EField (e : expr) (f : nat)
| EFun (f : nat) (args : list expr)
| ECall (m : nat) (args : list expr)
| ETuple (es : list expr)
| ENot (e : expr)
| EBool (is_and : bool) (e : expr) (es : list expr)
| EIf (c a b : expr)
| ECmp (e : expr) (rest : list (nat * expr)).

(** The meaning of the operations, calls and comparisons of a program, and the
    static type information mypy supplies ([isb e]: the type of [e] is bool). *)
Record env : Type := {
  fun_sem : nat -> heap -> list val -> val;
  call_sem : nat -> heap -> list val -> heap * (val + nat);
  cmp_sem : nat -> heap -> val -> val -> bool;
  isb : expr -> bool;
  fun_indep : nat -> bool;
  cmp_indep : nat -> bool
}.

(** [fun_indep], [cmp_indep] mark operations whose result does not depend on
    the heap (arithmetic, for example). *)
Definition env_ok (E : env) : Prop :=
  (forall f h h' vs, fun_indep E f = true -> fun_sem E f h vs = fun_sem E f h' vs) /\
  (forall o h h' v w, cmp_indep E o = true -> cmp_sem E o h v w = cmp_sem E o h' v w).

Inductive res (A : Type) : Type :=
| Ok (a : A) (h : heap)
| Exc (x : nat) (h : heap).
Arguments Ok {A} _ _.
Arguments Exc {A} _ _.

Definition bind {A B} (r : res A) (k : A -> heap -> res B) : res B :=
  match r with Ok a h => k a h | Exc x h => Exc x h end.

Definition get_field (h : heap) (v : val) (f : nat) : val :=
  match v with VRef r => h r f | _ => VNone end.

(** operands from left to right, each exactly once *)
Definition ev_list (ev : expr -> heap -> res val) : list expr -> heap -> res (list val) :=
  fix go es h :=
    match es with
    | [] => Ok [] h
    | e :: es' => bind (ev e h) (fun v h1 =>
                  bind (go es' h1) (fun vs h2 => Ok (v :: vs) h2))
    end.

(** [v and e1 and ...]: go on while the value says so *)
Definition ev_bool (ev : expr -> heap -> res val) (is_and : bool) :
  val -> list expr -> heap -> res val :=
  fix go v es h :=
    match es with
    | [] => Ok v h
    | e :: es' => if Bool.eqb (truthy v) is_and
                  then bind (ev e h) (fun v' h' => go v' es' h')
                  else Ok v h
    end.

(** [v op1 e1 op2 e2 ...]: stop at the first comparison that is false *)
Definition ev_cmp (ev : expr -> heap -> res val) (cmp : nat -> heap -> val -> val -> bool) :
  val -> list (nat * expr) -> heap -> res val :=
  fix go v rest h :=
    match rest with
    | [] => Ok (VBool true) h
    | (op, e) :: rest' =>
        bind (ev e h) (fun v' h' =>
          if cmp op h' v v' then go v' rest' h' else Ok (VBool false) h')
    end.

Fixpoint py_eval (E : env) (l : locals) (e : expr) (h : heap) {struct e} : res val :=
  match e with
  | EConst v => Ok v h
  | EVar x => Ok (l x) h
  | EField e f => bind (py_eval E l e h) (fun v h' => Ok (get_field h' v f) h')
  | EFun f args => bind (ev_list (py_eval E l) args h) (fun vs h' => Ok (fun_sem E f h' vs) h')
  | ECall m args =>
      bind (ev_list (py_eval E l) args h)
           (fun vs h' => match call_sem E m h' vs with
                         | (h'', inl v) => Ok v h''
                         | (h'', inr x) => Exc x h''
                         end)
  | ETuple es => bind (ev_list (py_eval E l) es h) (fun vs h' => Ok (VSeq vs) h')
  | ENot e => bind (py_eval E l e h) (fun v h' => Ok (VBool (negb (truthy v))) h')
  | EBool is_and e es =>
      bind (py_eval E l e h) (fun v h' => ev_bool (py_eval E l) is_and v es h')
  | EIf c a b =>
      bind (py_eval E l c h)
           (fun v h' => if truthy v then py_eval E l a h' else py_eval E l b h')
  | ECmp e rest =>
      bind (py_eval E l e h) (fun v h' => ev_cmp (py_eval E l) (cmp_sem E) v rest h')
  end.

(** The value of [e], or its truth value where only that is asked for (a
    condition). *)
Definition py_value (E : env) (l : locals) (as_condition : bool) (e : expr) (h : heap) : res val :=
  bind (py_eval E l e h)
       (fun v h' => Ok (if as_condition then VBool (truthy v) else v) h').

(** The static types are right in every state that satisfies [Inv], and
    evaluation keeps [Inv]. *)
Definition sound_typing (E : env) (l : locals) (Inv : heap -> Prop) : Prop :=
  forall e h v h', Inv h -> py_eval E l e h = Ok v h' ->
    Inv h' /\ (isb E e = true -> exists b, v = VBool b).

(** ** Syntactic classes of expressions, used to say where the translation is
    right *)

(** a call occurs in [e] *)
Fixpoint effectful (e : expr) : bool :=
  match e with
  | EConst _ | EVar _ => false
  | EField e _ | ENot e => effectful e
  | EFun _ es | ETuple es => existsb effectful es
  | ECall _ _ => true
  | EBool _ e es => effectful e || existsb effectful es
  | EIf c a b => effectful c || effectful a || effectful b
  | ECmp e rest => effectful e || existsb (fun p => effectful (snd p)) rest
  end.

(** the value of [e] can change when the heap changes later *)
Fixpoint reads (E : env) (e : expr) : bool :=
  match e with
  | EConst _ | EVar _ | ECall _ _ => false
  | EField _ _ => true
  | ENot e => reads E e
  | EFun f es => negb (fun_indep E f) || existsb (reads E) es
  | ETuple es => existsb (reads E) es
  | EBool _ e es => reads E e || existsb (reads E) es
  | EIf c a b => reads E c || reads E a || reads E b
  | ECmp e rest => reads E e || existsb (fun p => negb (cmp_indep E (fst p)) || reads E (snd p)) rest
  end.

(** no operand that reads the heap is followed by an operand with a call *)
Fixpoint pairs_ok (E : env) (es : list expr) : bool :=
  match es with
  | [] => true
  | e :: es' => (negb (existsb effectful es') || negb (reads E e)) && pairs_ok E es'
  end.

(** No conditional expression whose branches are not booleans is an operand of
    [and]/[or] whose value (rather than truth value) is used. [ctx] tells
    whether [e] itself is such an operand. *)
Fixpoint keeps_value (E : env) (ctx : bool) (e : expr) : bool :=
  match e with
  | EIf c a b => if ctx then isb E a && isb E b
                 else keeps_value E false a && keeps_value E false b
  | EBool _ e es => forallb (isb E) (e :: es) || (keeps_value E true e && forallb (keeps_value E true) es)
  | _ => true
  end.

(** The class of expressions for which the translation is proved right. *)
Fixpoint ordered (E : env) (e : expr) : bool :=
  match e with
  | EConst _ | EVar _ => true
  | EField e _ => ordered E e && keeps_value E false e
  | ENot e => ordered E e
  | EFun _ es | ETuple es | ECall _ es =>
      forallb (ordered E) es && forallb (keeps_value E false) es && pairs_ok E es
  | EBool _ e es => ordered E e && forallb (ordered E) es && pairs_ok E (e :: es)
  | EIf c a b => ordered E c && ordered E a && ordered E b &&
                 (negb (effectful a || effectful b) || negb (reads E c))
  | ECmp e rest =>
      ordered E e && forallb (fun p => ordered E (snd p)) rest &&
      keeps_value E false e && forallb (fun p => keeps_value E false (snd p)) rest &&
      pairs_ok E (e :: map snd rest) &&
      negb (existsb (fun p => effectful (snd p)) (tl rest))
  end.

(** ** Assignment *)

(** Targets.  The receiver of an attribute target is an expression without
    effects; [TgtStar] occurs directly below [TgtTuple] only. *)
Inductive target : Type :=
| TgtVar (x : nat)
| TgtField (e : expr) (f : nat)
| TgtTuple (ts : list target)
| TgtStar (x : nat).

Definition upd_loc (l : locals) (x : nat) (v : val) : locals :=
  fun y => if Nat.eqb x y then v else l y.
Definition upd_heap (h : heap) (r f : nat) (v : val) : heap :=
  fun r' f' => if Nat.eqb r r' && Nat.eqb f f' then v else h r' f'.

(** [None]: an exception (ValueError on a wrong number of values, or a value
    that is no sequence) at this point; the state is the one reached so far. *)
Record astate : Type := { a_loc : locals; a_heap : heap; a_ok : bool }.

Definition is_star (t : target) : bool :=
  match t with TgtStar _ => true | _ => false end.

(** number of targets before the star, if there is one *)
Fixpoint star_at (ts : list target) : option nat :=
  match ts with
  | [] => None
  | t :: ts' => if is_star t then Some 0 else option_map S (star_at ts')
  end.

(** The values handed to the targets [ts] when the sequence [vs] is unpacked;
    the starred target gets the list of what the others leave over. *)
Definition unpack (ts : list target) (vs : list val) : option (list val) :=
  match star_at ts with
  | None => if Nat.eqb (length vs) (length ts) then Some vs else None
  | Some i =>
      if Nat.leb (length ts - 1) (length vs)
      then let after := length ts - 1 - i in
           Some (firstn i vs ++
                 VSeq (firstn (length vs - after - i) (skipn i vs)) ::
                 skipn (length vs - after) vs)
      else None
  end.

Definition assign_list (f : target -> val -> astate -> astate) :
  list target -> list val -> astate -> astate :=
  fix go ts vs st :=
    match ts, vs with
    | t :: ts', v :: vs' => go ts' vs' (f t v st)
    | _, _ => st
    end.

Fixpoint py_assign (E : env) (t : target) (v : val) (st : astate) {struct t} : astate :=
  if a_ok st then
    match t with
    | TgtVar x | TgtStar x =>
        {| a_loc := upd_loc (a_loc st) x v; a_heap := a_heap st; a_ok := true |}
    | TgtField e f =>
        match py_eval E (a_loc st) e (a_heap st) with
        | Ok (VRef r) _ =>
            {| a_loc := a_loc st; a_heap := upd_heap (a_heap st) r f v; a_ok := true |}
        | _ => {| a_loc := a_loc st; a_heap := a_heap st; a_ok := false |}
        end
    | TgtTuple ts =>
        match v with
        | VSeq vs =>
            match unpack ts vs with
            | Some ws => assign_list (py_assign E) ts ws st
            | None => {| a_loc := a_loc st; a_heap := a_heap st; a_ok := false |}
            end
        | _ => {| a_loc := a_loc st; a_heap := a_heap st; a_ok := false |}
        end
    end
  else st.

(** [t1 = t2 = ... = e]: evaluate [e] once, then assign from left to right. *)
Definition py_assign_stmt (E : env) (ts : list target) (e : expr) (l : locals) (h : heap)
  : res astate :=
  bind (py_eval E l e h) (fun v h' =>
    Ok (fold_left (fun st t => py_assign E t v st) ts
                  {| a_loc := l; a_heap := h'; a_ok := true |}) h').

(** [x op= e] and [o.f op= e]: the old value of the target is read before [e]
    is evaluated. *)
Definition py_aug_assign (E : env) (t : target) (read : expr) (op : nat) (e : expr)
  (l : locals) (h : heap) : res astate :=
  bind (py_eval E l read h) (fun v h1 =>
  bind (py_eval E l e h1) (fun w h2 =>
    Ok (py_assign E t (fun_sem E op h2 [v; w])
          {| a_loc := l; a_heap := h2; a_ok := true |}) h2)).

(** ** Where the translation of assignments is right *)

(** receivers of attribute targets: [x], [x.f], [x.f.g], ... *)
Fixpoint is_path (e : expr) : bool :=
  match e with
  | EVar _ | EConst _ => true
  | EField e _ => is_path e
  | _ => false
  end.

(** receivers are paths, at most one star per tuple *)
Fixpoint wf_target (t : target) : bool :=
  match t with
  | TgtVar _ | TgtStar _ => true
  | TgtField e _ => is_path e
  | TgtTuple ts => forallb wf_target ts && Nat.leb (length (filter is_star ts)) 1
  end.

Fixpoint assigned (t : target) : list nat :=
  match t with
  | TgtVar x | TgtStar x => [x]
  | TgtField _ _ => []
  | TgtTuple ts => flat_map assigned ts
  end.

Fixpoint assigns_field (t : target) : bool :=
  match t with
  | TgtVar _ | TgtStar _ => false
  | TgtField _ _ => true
  | TgtTuple ts => existsb assigns_field ts
  end.

(** the value of [e] is obtained from the variable [x] and no call has stored it
    away *)
Fixpoint mentions (x : nat) (e : expr) : bool :=
  match e with
  | EConst _ | ECall _ _ => false
  | EVar y => Nat.eqb x y
  | EField e _ | ENot e => mentions x e
  | EFun _ es | ETuple es => existsb (mentions x) es
  | EBool _ e es => mentions x e || existsb (mentions x) es
  | EIf c a b => mentions x c || mentions x a || mentions x b
  | ECmp e rest => mentions x e || existsb (fun p => mentions x (snd p)) rest
  end.

(** the targets do not overwrite anything the right-hand side is read from *)
Definition untouched (E : env) (ts : list target) (e : expr) : bool :=
  forallb (fun x => negb (mentions x e)) (flat_map assigned ts) &&
  (negb (existsb assigns_field ts) || negb (reads E e)).

Definition single (ts : list target) : bool :=
  match ts with [TgtVar _] | [TgtField _ _] => true | _ => false end.

Definition fits_list (f : target -> val -> Prop) : list target -> list val -> Prop :=
  fix go ts vs :=
    match ts, vs with
    | t :: ts', v :: vs' => f t v /\ go ts' vs'
    | _, _ => True
    end.

(** wherever a starred target is followed by other targets, it takes exactly
    one value *)
Fixpoint star_fits (t : target) (v : val) {struct t} : Prop :=
  match t, v with
  | TgtTuple ts, VSeq vs =>
      match star_at ts with
      | Some i => S i < length ts -> length vs = length ts
      | None => True
      end /\
      match unpack ts vs with
      | Some ws => fits_list star_fits ts ws
      | None => True
      end
  | _, _ => True
  end.

(** Two outcomes of an assignment agree, except for the variables [cs]. *)
Definition agree_except (cs : list nat) (r1 r2 : res astate) : Prop :=
  match r1, r2 with
  | Ok s1 h1, Ok s2 h2 =>
      h1 = h2 /\ a_heap s1 = a_heap s2 /\ a_ok s1 = a_ok s2 /\
      forall y, ~ In y cs -> a_loc s1 y = a_loc s2 y
  | Exc x1 h1, Exc x2 h2 => x1 = x2 /\ h1 = h2
  | _, _ => False
  end.

(** [b1, ..., bn, *x, c1, ..., cm] *)
Definition star_target (bs : list nat) (x : nat) (cs : list nat) : target :=
  TgtTuple (map TgtVar bs ++ TgtStar x :: map TgtVar cs).
