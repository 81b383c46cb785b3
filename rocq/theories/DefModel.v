(** Local variables and whether they are defined.

    Sources (under /repo/src/nagini_translation):
    - translators/common.py: is_local_variable (266-276), check_var_defined, set_var_defined
      (293-309);
    - translators/expression.py: translate_Name (963-997), wrap_definedness_check (999-1012);
    - translators/statement.py: assign_to (1451-1464), translate_stmt_AugAssign (443-465),
      translate_stmt_For (759-893), _create_for_loop_invariant (513-660),
      _get_havocked_var_type_info (740-757), translate_stmt_While, translate_stmt_If;
    - translators/pure.py: _wrap_with_assuming (336-346), _translate_assign_wrapper (348-390),
      translate_pure_If (164-193);
    - translators/program.py: create_definedness_functions (620-638),
      create_assuming_function (656-672);
    - translators/call.py: inline_method (1042-1100).

    Local variables become Viper variables of type Ref.  _isDefined is an uninterpreted
    function of the identifier of the variable; assignments assume it, reads check it.

    Simplifications: values are integers (None: a reference of which the verifier does not
    know that it is an int); functions have one parameter; functions call functions that
    come before them; for-loops are over range(e); no exceptions, match statements, break,
    continue or return in the middle; a method is its body, it calls only pure functions and
    inlined methods.  Conditions of pure functions are the variables that translate_pure_If
    introduces (PureModel.v has the way from if-statements to them). *)
From Coq Require Import List Bool Arith NArith ZArith.
From Verif Require Import NamesModel.
Import ListNotations.
Local Open Scope nat_scope.

Definition name := pystring.

Inductive exp :=
  | ELit (z : Z) | EVar (x : name) | EAdd (a b : exp) | ELt (a b : exp)
  | EIf (c a b : exp)               (* a if c else b *)
  | ECall (f : nat) (a : exp).      (* a pure function *)

(** ** Pure functions *)

(** Conditions under which a statement of a pure function is executed: variables that hold
    the value of an enclosing if-condition, and whether it has to be true. *)
Definition guard := list (nat * bool).

Inductive wrap :=
  | WCond (g : guard) (k : nat) (e : exp)      (* the condition of an if *)
  | WAssign (g : guard) (x : name) (e : exp).

Record pfun := PF { pf_arg : name; pf_wraps : list wrap; pf_ret : exp }.

(** The latest function comes first; its number is the length of the rest. *)
Definition table := list pfun.

(** ** Python *)

Definition store := name -> option Z.
Definition set {A} (s : name -> A) (x : name) (z : A) : name -> A := fun y => if pystring_eqb x y then z else s y.

(** A value, or UnboundLocalError for x. *)
Inductive pres := PV (z : Z) | PE (x : name).

Definition bind (r : pres) (k : Z -> pres) : pres := match r with PV z => k z | PE x => PE x end.

Definition conds := nat -> bool.
Definition passes (c : conds) (g : guard) : bool := forallb (fun kb => Bool.eqb (c (fst kb)) (snd kb)) g.
Definition set_cond (c : conds) (k : nat) (b : bool) : conds := fun k' => if k =? k' then b else c k'.

Definition truth (z : Z) : bool := negb (Z.eqb z 0).
Definition less (a b : Z) : Z := if Z.ltb a b then 1%Z else 0%Z.

Section PEval.
  Variable call : nat -> Z -> pres.

  Fixpoint peval (s : store) (e : exp) : pres :=
    match e with
    | ELit z => PV z
    | EVar x => match s x with Some z => PV z | None => PE x end
    | EAdd a b => bind (peval s a) (fun p => bind (peval s b) (fun q => PV (p + q)%Z))
    | ELt a b => bind (peval s a) (fun p => bind (peval s b) (fun q => PV (less p q)))
    | EIf c a b => bind (peval s c) (fun p => if truth p then peval s a else peval s b)
    | ECall f a => bind (peval s a) (call f)
    end.

  Fixpoint prun (s : store) (c : conds) (ws : list wrap) (ret : exp) : pres :=
    match ws with
    | [] => peval s ret
    | WCond g k e :: ws' =>
        if passes c g then bind (peval s e) (fun z => prun s (set_cond c k (truth z)) ws' ret)
        else prun s (set_cond c k false) ws' ret
    | WAssign g x e :: ws' =>
        if passes c g then bind (peval s e) (fun z => prun (set s x (Some z)) c ws' ret) else prun s c ws' ret
    end.
End PEval.

(** Functions that do not exist are rejected earlier. *)
Fixpoint pcall (T : table) (f : nat) (a : Z) : pres :=
  match T with
  | [] => PV 0%Z
  | p :: T' =>
      if f =? length T' then prun (pcall T') (set (fun _ => None) (pf_arg p) (Some a)) (fun _ => false) (pf_wraps p) (pf_ret p)
      else pcall T' f a
  end.

(** ** Methods *)

Inductive stmt :=
  | SSkip
  | SAssign (x : name) (e : exp)
  | SAug (x : name) (e : exp)                              (* x += e *)
  | SSeq (a b : stmt)
  | SIf (c : exp) (a b : stmt)
  | SWhile (c inv : exp) (typed : list name) (b : stmt)    (* typed: _get_havocked_vars *)
  | SFor (x : name) (e inv : exp) (typed : list name) (b : stmt)
  | SInline (x : name) (e : exp) (p : name) (b : stmt) (r : exp).
      (* x = m(e) for an inlined method m with parameter p, body b and, at its end, return r *)

Inductive outcome := ODone (s : store) | OErr (s : store) (x : name).

Section Exec.
  Variable T : table.

  Definition bump (s : store) (i : Z) (x : name) : store := set s x (Some i).

  Inductive exec : stmt -> store -> outcome -> Prop :=
    | e_skip s : exec SSkip s (ODone s)
    | e_assign x e s z : peval (pcall T) s e = PV z -> exec (SAssign x e) s (ODone (set s x (Some z)))
    | e_assign_err x e s y : peval (pcall T) s e = PE y -> exec (SAssign x e) s (OErr s y)
    | e_aug x e s u z : s x = Some u -> peval (pcall T) s e = PV z -> exec (SAug x e) s (ODone (set s x (Some (u + z)%Z)))
    | e_aug_err1 x e s : s x = None -> exec (SAug x e) s (OErr s x)
    | e_aug_err2 x e s u y : s x = Some u -> peval (pcall T) s e = PE y -> exec (SAug x e) s (OErr s y)
    | e_seq a b s s1 o : exec a s (ODone s1) -> exec b s1 o -> exec (SSeq a b) s o
    | e_seq_err a b s s1 x : exec a s (OErr s1 x) -> exec (SSeq a b) s (OErr s1 x)
    | e_if c a b s z o : peval (pcall T) s c = PV z -> exec (if truth z then a else b) s o -> exec (SIf c a b) s o
    | e_if_err c a b s x : peval (pcall T) s c = PE x -> exec (SIf c a b) s (OErr s x)
    | e_while_end c inv t b s z : peval (pcall T) s c = PV z -> truth z = false -> exec (SWhile c inv t b) s (ODone s)
    | e_while_more c inv t b s z s1 o :
        peval (pcall T) s c = PV z -> truth z = true -> exec b s (ODone s1) -> exec (SWhile c inv t b) s1 o ->
        exec (SWhile c inv t b) s o
    | e_while_err c inv t b s x : peval (pcall T) s c = PE x -> exec (SWhile c inv t b) s (OErr s x)
    | e_while_body c inv t b s z s1 x :
        peval (pcall T) s c = PV z -> truth z = true -> exec b s (OErr s1 x) -> exec (SWhile c inv t b) s (OErr s1 x)
    | e_for x e inv t b s n o : peval (pcall T) s e = PV n -> iter x b 0%Z n s o -> exec (SFor x e inv t b) s o
    | e_for_err x e inv t b s y : peval (pcall T) s e = PE y -> exec (SFor x e inv t b) s (OErr s y)
    | e_inline x e p b r s z s1 w :
        peval (pcall T) s e = PV z -> exec b (set (fun _ => None) p (Some z)) (ODone s1) -> peval (pcall T) s1 r = PV w ->
        exec (SInline x e p b r) s (ODone (set s x (Some w)))
    | e_inline_arg x e p b r s y : peval (pcall T) s e = PE y -> exec (SInline x e p b r) s (OErr s y)
    | e_inline_body x e p b r s z s1 y :
        peval (pcall T) s e = PV z -> exec b (set (fun _ => None) p (Some z)) (OErr s1 y) -> exec (SInline x e p b r) s (OErr s1 y)
    | e_inline_ret x e p b r s z s1 y :
        peval (pcall T) s e = PV z -> exec b (set (fun _ => None) p (Some z)) (ODone s1) -> peval (pcall T) s1 r = PE y ->
        exec (SInline x e p b r) s (OErr s1 y)
  (* for x in range(n), from i on *)
  with iter : name -> stmt -> Z -> Z -> store -> outcome -> Prop :=
    | i_end x b i n s : (n <= i)%Z -> iter x b i n s (ODone s)
    | i_more x b i n s s1 o : (i < n)%Z -> exec b (bump s i x) (ODone s1) -> iter x b (i + 1)%Z n s1 o -> iter x b i n s o
    | i_err x b i n s s1 y : (i < n)%Z -> exec b (bump s i x) (OErr s1 y) -> iter x b i n s (OErr s1 y).
End Exec.

(** ** Viper *)

(** A reference: an int, or something of which the verifier does not know that it is one. *)
Definition vval := option Z.
Definition venv := name -> vval.

(** The identifier of a variable: IntLit(_get_string_value(name)). *)
Definition ident (x : name) : N := string_to_int x.

Section VEval.
  Variable vcall : nat -> Z -> vval.
  Variable vfacts : nat -> Z -> list N.

  Definition lift (f : Z -> Z -> Z) (p q : vval) : vval :=
    match p, q with Some a, Some b => Some (f a b) | _, _ => None end.

  (** The value of an expression (Viper's expressions are total). *)
  Fixpoint veval (v : venv) (e : exp) : vval :=
    match e with
    | ELit z => Some z
    | EVar x => v x
    | EAdd a b => lift Z.add (veval v a) (veval v b)
    | ELt a b => lift less (veval v a) (veval v b)
    | EIf c a b => match veval v c with Some z => if truth z then veval v a else veval v b | None => None end
    | ECall f a => match veval v a with Some z => vcall f z | None => None end
    end.

  (** What is known of _isDefined once the expression is evaluated: the postconditions of
      _assuming in the functions that are called. *)
  Fixpoint efacts (v : venv) (e : exp) : list N :=
    match e with
    | ELit _ | EVar _ => []
    | EAdd a b | ELt a b => efacts v a ++ efacts v b
    | EIf c a b => efacts v c ++ match veval v c with Some z => if truth z then efacts v a else efacts v b | None => [] end
    | ECall f a => efacts v a ++ match veval v a with Some z => vfacts f z | None => [] end
    end.

  (** pure.py 348-390: let x == (guard ? _assuming(e, _isDefined(id)) : old x) *)
  Fixpoint vrun (v : venv) (c : conds) (ws : list wrap) (ret : exp) : vval :=
    match ws with
    | [] => veval v ret
    | WCond g k e :: ws' =>
        vrun v (set_cond c k (passes c g && match veval v e with Some z => truth z | None => false end)) ws' ret
    | WAssign g x e :: ws' => vrun (if passes c g then set v x (veval v e) else v) c ws' ret
    end.

  Fixpoint rfacts (v : venv) (c : conds) (ws : list wrap) (ret : exp) : list N :=
    match ws with
    | [] => efacts v ret
    | WCond g k e :: ws' =>
        (if passes c g then efacts v e else []) ++
        rfacts v (set_cond c k (passes c g && match veval v e with Some z => truth z | None => false end)) ws' ret
    | WAssign g x e :: ws' =>
        (if passes c g then efacts v e ++ [ident x] else []) ++
        rfacts (if passes c g then set v x (veval v e) else v) c ws' ret
    end.
End VEval.

(** The dummy value of a variable that is not assigned yet is null. *)
Definition fun_env (p : pfun) (a : Z) : venv := set (fun _ => None) (pf_arg p) (Some a).

Fixpoint vcall (T : table) (f : nat) (a : Z) : vval :=
  match T with
  | [] => Some 0%Z
  | p :: T' => if f =? length T' then vrun (vcall T') (fun_env p a) (fun _ => false) (pf_wraps p) (pf_ret p) else vcall T' f a
  end.

Fixpoint vfacts (T : table) (f : nat) (a : Z) : list N :=
  match T with
  | [] => []
  | p :: T' =>
      if f =? length T' then rfacts (vcall T') (vfacts T') (fun_env p a) (fun _ => false) (pf_wraps p) (pf_ret p)
      else vfacts T' f a
  end.

Section Verify.
  Variable D : N -> bool.      (* _isDefined *)
  Variable T : table.

  (** Evaluating an expression: all checks succeed, and then k holds of the value.  A read of
      a local variable is _checkDefined(x, id); operators and functions demand integers.
      expression.py 965-968: the variable _ is a new Viper variable each time. *)
  Fixpoint wpe (loc : name -> option N) (v : venv) (e : exp) (k : vval -> Prop) : Prop :=
    match e with
    | ELit z => k (Some z)
    | EVar x =>
        if pystring_eqb x [95%N] then forall r, k r
        else match loc x with Some i => D i = true | None => True end /\ k (v x)
    | EAdd a b => wpe loc v a (fun p => wpe loc v b (fun q => match p, q with Some m, Some n => k (Some (m + n)%Z) | _, _ => False end))
    | ELt a b => wpe loc v a (fun p => wpe loc v b (fun q => match p, q with Some m, Some n => k (Some (less m n)) | _, _ => False end))
    | EIf c a b => wpe loc v c (fun p => match p with Some z => if truth z then wpe loc v a k else wpe loc v b k | None => False end)
    | ECall f a =>
        wpe loc v a (fun p => match p with
                              | Some z => (forall i, In i (vfacts T f z) -> D i = true) -> k (vcall T f z)
                              | None => False
                              end)
    end.

  (** In pure functions, the identifier is that of the Python name (expression.py 988-994). *)
  Definition fun_loc (p : pfun) (x : name) : option N := if pystring_eqb x (pf_arg p) then None else Some (ident x).

  Fixpoint wrun (p : pfun) (v : venv) (c : conds) (ws : list wrap) : Prop :=
    match ws with
    | [] => wpe (fun_loc p) v (pf_ret p) (fun r => r <> None)
    | WCond g k e :: ws' =>
        if passes c g
        then wpe (fun_loc p) v e (fun r => match r with Some z => wrun p v (set_cond c k (truth z)) ws' | None => False end)
        else wrun p v (set_cond c k false) ws'
    | WAssign g x e :: ws' =>
        if passes c g then wpe (fun_loc p) v e (fun r => D (ident x) = true -> wrun p (set v x r) c ws') else wrun p v c ws'
    end.

  Fixpoint assigned (s : stmt) : list name :=
    match s with
    | SSkip => []
    | SAssign x _ | SAug x _ | SInline x _ _ _ _ => [x]
    | SSeq a b | SIf _ a b => assigned a ++ assigned b
    | SWhile _ _ _ b => assigned b
    | SFor x _ _ _ b => x :: assigned b
    end.

  (** What Viper knows of the variables after a loop: those not assigned are as before. *)
  Definition same_outside (xs : list name) (v v' : venv) : Prop := forall x, ~ In x xs -> v' x = v x.

  (** inhale _isDefined(id) after an assignment to a local variable *)
  Definition defining (loc : name -> option N) (x : name) (k : Prop) : Prop :=
    match loc x with Some i => D i = true -> k | None => k end.

  (** The next element of a range of n elements if i have been taken, or the end.
      statement.py 788-815 *)
  Definition next (loc : name -> option N) (x : name) (n i : Z) (v : venv) (k : Z -> bool -> venv -> Prop) : Prop :=
    if Z.ltb i n then defining loc x (k (i + 1)%Z false (set v x (Some i))) else k i true v.

  (** statement.py 535-660, for range(n): bounds of the index, the last element taken, that
      all are taken in the end, and the target of the loop. *)
  Definition iter_inv (loc : name -> option N) (x : name) (n i : Z) (err : bool) (v : venv) : Prop :=
    (0 <= i <= n)%Z /\ (err = false -> 0 < n)%Z /\
    (0 < n -> 0 < i /\ v x = Some (i - 1)%Z /\ match loc x with Some d => D d = true | None => True end)%Z /\
    (err = true -> i = n).

  Fixpoint wp (loc : name -> option N) (s : stmt) (q : venv -> Prop) (v : venv) : Prop :=
    match s with
    | SSkip => q v
    | SAssign x e => wpe loc v e (fun r => defining loc x (q (set v x r)))
    | SAug x e =>
        wpe loc v e (fun r => match v x, r with Some m, Some n => defining loc x (q (set v x (Some (m + n)%Z))) | _, _ => False end)
    | SSeq a b => wp loc a (wp loc b q) v
    | SIf c a b => wpe loc v c (fun r => match r with Some z => if truth z then wp loc a q v else wp loc b q v | None => False end)
    | SWhile c inv t b =>
        let check v := (forall x, In x t -> v x <> None) /\ wpe loc v inv (fun r => exists z, r = Some z /\ truth z = true) in
        check v /\
        forall v', same_outside (assigned b) v v' -> (forall x, In x t -> v' x <> None) ->
          wpe loc v' inv (fun r => (exists z, r = Some z /\ truth z = true) ->
            wpe loc v' c (fun r => match r with
                                   | Some z => if truth z then wp loc b check v' else q v'
                                   | None => False
                                   end))
    | SFor x e inv t b =>
        wpe loc v e (fun r =>
          match r with
          | None => False
          | Some m =>
              let n := Z.max 0 m in
              let check i err v := iter_inv loc x n i err v /\ (forall x, In x t -> v x <> None) /\
                                   wpe loc v inv (fun r => exists z, r = Some z /\ truth z = true) in
              next loc x n 0 v (fun i err v1 =>
                check i err v1 /\
                forall v' i err, same_outside (x :: assigned b) v1 v' -> iter_inv loc x n i err v' ->
                  (forall x, In x t -> v' x <> None) ->
                  wpe loc v' inv (fun r => (exists z, r = Some z /\ truth z = true) ->
                    if err then q v' else wp loc b (fun v2 => next loc x n i v2 (fun i err v3 => check i err v3)) v'))
          end)
    (* call.py 1065-1095: the local variables of the method are new Viper variables, which
       are not among the locals of the inlined method (is_local_variable), so that neither
       assignments nor reads are recorded *)
    | SInline x e p b r =>
        wpe loc v e (fun a => forall u : venv,
          wp (fun _ => None) b (fun u1 => wpe (fun _ => None) u1 r (fun w => defining loc x (q (set v x w)))) (set u p a))
    end.
End Verify.

(** A method: its parameters, its body, and the Viper names of its variables. *)
Record method := Me { m_args : list name; m_body : stmt; m_sil : name -> name }.

(** common.py 266-276: names of arguments are not local; the others are known to
    _isDefined by their Viper name. *)
Definition local (m : method) (x : name) : option N :=
  if existsb (pystring_eqb x) (m_args m) then None
  else if pystring_eqb x [95%N] then None
  else Some (ident (m_sil m x)).

(** Verification succeeds: for all interpretations of _isDefined and all values. *)
Definition fun_ok (T : table) (p : pfun) : Prop := forall D a, wrun D T p (fun_env p a) (fun _ => false) (pf_wraps p).

Fixpoint table_ok (T : table) : Prop :=
  match T with [] => True | p :: T' => fun_ok T' p /\ table_ok T' end.

Definition method_ok (T : table) (m : method) : Prop :=
  forall D v, (forall x, In x (m_args m) -> v x <> None) -> wp D T (local m) (m_body m) (fun _ => True) v.
