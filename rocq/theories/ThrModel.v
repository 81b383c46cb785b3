(** Threads: creating, starting and joining them.

    Sources (under /repo/src/nagini_translation):
    - translators/call.py: _get_arg, _handle_thread_constructor_args (1434-1504),
      _translate_thread_creation (1506-1567), _translate_thread_start (1569-1622),
      _translate_thread_join (1624-1690), _inhale_possible_thread_post (1692-1769);
    - translators/obligation/fork.py: _create_join_permission, _remember_old_expressions,
      _set_parameter_aliases, _add_precondition_exhales (71-209);
    - translators/contract.py: translate_builtin_predicate, _get_field_perm,
      translate_may_start, translate_thread_post (163-191), translate_acc_global (256-281),
      _translate_acc_field (283-300); translators/common.py: create_predicate_access (883-899).

    The wait-level checks of start and join are in WaitModel.v.  Not modelled: MaySet and
    abstract read permissions in contracts, conditional permissions, the contents of
    predicates and containers, results of joined methods, receivers given as a module. *)
From Coq Require Import List Bool Arith ZArith QArith.
Import ListNotations.
Local Open Scope nat_scope.

(** ** Constructor arguments *)

(** The keyword parameters of Thread (nagini_contracts/thread.py 17-18), in order. *)
Inductive kw := KGroup | KTarget | KName | KArgs | KKwargs | KDaemon.

Definition kw_eqb (a b : kw) : bool :=
  match a, b with
  | KGroup, KGroup | KTarget, KTarget | KName, KName | KArgs, KArgs | KKwargs, KKwargs
  | KDaemon, KDaemon => true
  | _, _ => false
  end.

(** list.index *)
Fixpoint index_of (k : kw) (ks : list kw) : option nat :=
  match ks with
  | [] => None
  | k' :: ks' => if kw_eqb k k' then Some 0 else option_map S (index_of k ks')
  end.

(** call.py 1434-1439 _get_arg: the position of the expression in args + keyword values. *)
Definition get_arg (nargs : nat) (keywords : list kw) (index : nat) (k : kw) : option nat :=
  if index <? nargs then Some index
  else option_map (fun i => nargs + i) (index_of k keywords).

(** Python's truth value of an index or None. *)
Definition truthy (o : option nat) : bool :=
  match o with Some (S _) => true | _ => false end.

(** What _handle_thread_constructor_args makes of the arguments: InvalidProgramException,
    UnsupportedException, an uncaught TypeError, or the positions of group, target and args. *)
Inductive creation :=
  | Invalid | Unsupported | Crash
  | Bound (group : option nat) (target args : nat).

(** call.py 1441-1504, up to the resolution of the target: 1447-1452 the positions, 1454-1457
    the rejections, 1471 arg_exprs[None] if there is no args parameter. *)
Definition handle_args (nargs : nat) (keywords : list kw) : creation :=
  match get_arg nargs keywords 1 KTarget with
  | None => Invalid
  | Some target =>
      if truthy (get_arg nargs keywords 4 KKwargs) || truthy (get_arg nargs keywords 5 KDaemon)
      then Unsupported
      else match get_arg nargs keywords 3 KArgs with
           | None => Crash
           | Some args => Bound (get_arg nargs keywords 0 KGroup) target args
           end
  end.

(** ** Values, types, contracts *)

(** Values: integers, objects of a class, thread objects. *)
Inductive val := VInt (z : Z) | VObj (c n : nat) | VThread (n : nat).

Definition val_eqb (a b : val) : bool :=
  match a, b with
  | VInt x, VInt y => Z.eqb x y
  | VObj c n, VObj c' n' => (c =? c') && (n =? n')
  | VThread n, VThread n' => n =? n'
  | _, _ => false
  end.

Inductive ty := TInt | TObject | TClass (c : nat) | TThread.

(** The type test of a parameter (type_check); sub is the subclass relation. *)
Definition has_type (sub : nat -> nat -> bool) (v : val) (t : ty) : bool :=
  match t, v with
  | TObject, _ => true
  | TInt, VInt _ => true
  | TClass c, VObj c' _ => sub c' c
  | TThread, VThread _ => true
  | _, _ => false
  end.

(** Expressions in contracts: parameter i, a literal, field f of parameter i, Old of that,
    sums.  (Longer paths and other operators are left out.) *)
Inductive exp :=
  | XArg (i : nat) | XLit (v : val) | XField (i f : nat) | XOld (i f : nat) | XAdd (a b : exp).

(** What Acc can be applied to: a field, the contents of a list, set, dict or bytearray, a
    predicate of the program, a global variable, MayStart and ThreadPost. *)
Inductive acc :=
  | AField (i f : nat) | AContainer (i : nat) | APred (p i : nat) | AGlobal (g : nat)
  | AMayStart (i : nat) | AThreadPost (i : nat).

Inductive atom := Acc (a : acc) (q : Q) | Same (a b : exp).

(** A method that can be the target of a thread: parameter types, precondition,
    postcondition, exceptional postcondition (None: it declares no exceptions), and whether
    it promises to terminate for given arguments. *)
Record method := Meth {
  m_types : list ty;
  m_pre : list atom;
  m_post : list atom;
  m_exc : option (list atom);
  m_term : list val -> bool }.

(** ** The generated Viper code *)

(** Expressions over the functions of the Thread domain (program.py 601-620). *)
Inductive vexp :=
  | EGetArg (t : nat) (i : nat) | EGetOld (t : nat) (i f : nat) | ELit (v : val)
  | EField (e : vexp) (f : nat) | EAdd (a b : vexp).

Inductive vres :=
  | WField (e : vexp) (f : nat) | WContainer (e : vexp) | WPred (p : nat) (e : vexp)
  | WGlobal (g : nat) | WMayStart (e : vexp) | WThreadPost (e : vexp).

(** Permission amounts: a literal, a product, the permission currently held to the
    ThreadPost predicate of a thread (CurrentPerm). *)
Inductive vperm := PLit (q : Q) | PMul (a b : vperm) | PCur (t : nat).

Inductive vbool :=
  | BTrue | BFalse
  | BSame (a b : vexp) | BIff (a b : vbool) | BAnd (a b : vbool) | BOr (a b : vbool)
  | BType (e : vexp) (t : ty)
  | BMethod (t m : nat)         (* getMethod(t) == m_threading *)
  | BJoinable (e : vexp)        (* _joinable(t) *)
  | BTerm (t m : nat)           (* termination check of m for the arguments of t *)
  | BPost (t : nat).            (* perm(ThreadPost(t)) > none *)

Inductive vassert := VAcc (r : vres) (p : vperm) | VB (b : vbool).

Inductive vstmt :=
  | Exhale (l : list vassert) | Inhale (l : list vassert) | Assert (b : vbool)
  | If (b : vbool) (l : list vstmt).

(** ctx.perm_factor applied to an amount (contract.py 167-168, 290-291, common.py 892-895). *)
Definition scaled (factor : option vperm) (q : Q) : vperm :=
  match factor with None => PLit q | Some p => PMul (PLit q) p end.

(** Parameters are aliased to variables holding getArg(t, i) (fork.py 112-140,
    call.py 1707-1720), old expressions to getOld(t, key) (call.py 1726-1743).  The key is the
    number of the printed expression; here it is the expression itself (see NamesModel.v for
    that numbering). *)
Fixpoint tr_exp (t : nat) (e : exp) : vexp :=
  match e with
  | XArg i => EGetArg t i
  | XLit v => ELit v
  | XField i f => EField (EGetArg t i) f
  | XOld i f => EGetOld t i f
  | XAdd a b => EAdd (tr_exp t a) (tr_exp t b)
  end.

(** Accessibility assertions.  AField: contract.py 283-300; AContainer: 163-171; APred:
    common.py 883-899; AGlobal: contract.py 256-281, which does not look at perm_factor;
    AMayStart and AThreadPost: 173-191, neither do these. *)
Definition tr_acc (t : nat) (factor : option vperm) (a : acc) (q : Q) : list vassert :=
  match a with
  | AField i f => [VAcc (WField (EGetArg t i) f) (scaled factor q)]
  | AContainer i => [VAcc (WContainer (EGetArg t i)) (scaled factor q)]
  | APred p i => [VAcc (WPred p (EGetArg t i)) (scaled factor q)]
  | AGlobal g => [VAcc (WGlobal g) (PLit q)]
  | AMayStart i => [VAcc (WMayStart (EGetArg t i)) (PLit q)]
  | AThreadPost i => [VAcc (WThreadPost (EGetArg t i)) (PLit q); VB (BJoinable (EGetArg t i))]
  end.

Definition tr_atom (t : nat) (factor : option vperm) (a : atom) : list vassert :=
  match a with
  | Acc a q => tr_acc t factor a q
  | Same a b => [VB (BSame (tr_exp t a) (tr_exp t b))]
  end.

Definition tr_asn (t : nat) (factor : option vperm) (l : list atom) : list vassert :=
  flat_map (tr_atom t factor) l.

(** lib/util.py 376-386 OldExpressionCollector: the expressions inside Old(). *)
Fixpoint exp_olds (e : exp) : list (nat * nat) :=
  match e with
  | XOld i f => [(i, f)]
  | XAdd a b => exp_olds a ++ exp_olds b
  | _ => []
  end.

Definition atom_olds (a : atom) : list (nat * nat) :=
  match a with Same a b => exp_olds a ++ exp_olds b | Acc _ _ => [] end.

Definition olds_of (l : list atom) : list (nat * nat) := flat_map atom_olds l.

(** call.py 1539-1553: arg_type_checks starts as True and becomes EqCmp of itself and the
    next check. *)
Definition type_checks (sub_args : list (val * ty)) : vbool :=
  fold_left (fun acc (vt : val * ty) => BIff acc (BType (ELit (fst vt)) (snd vt))) sub_args BTrue.

Fixpoint arg_facts (t i : nat) (args : list val) : list vassert :=
  match args with
  | [] => []
  | v :: args' => VB (BSame (EGetArg t i) (ELit v)) :: arg_facts t (S i) args'
  end.

(** call.py 1563-1566 (the new statement and the type of the thread object are implicit). *)
Definition create_stmts (t m : nat) (types : list ty) (args : list val) : list vstmt :=
  [Inhale [VB (BMethod t m)];
   Assert (type_checks (combine args types));
   Inhale (arg_facts t 0 args);
   Inhale [VAcc (WMayStart (ELit (VThread t))) (PLit 1)]].

Fixpoint type_facts (t i : nat) (types : list ty) : list vassert :=
  match types with
  | [] => []
  | T :: types' => VB (BType (EGetArg t i) T) :: type_facts t (S i) types'
  end.

(** fork.py 92-110 *)
Definition old_facts (t : nat) (olds : list (nat * nat)) : list vassert :=
  map (fun o => VB (BSame (EGetOld t (fst o) (snd o)) (EField (EGetArg t (fst o)) (snd o)))) olds.

(** fork.py 142-209 for one method of the list: parameter types, old values, the exhale of
    the precondition, join permission (71-90; an implication, here a conditional). *)
Definition start_option (P : nat -> method) (t m : nat) : vstmt :=
  If (BMethod t m)
     [Inhale (type_facts t 0 (m_types (P m)));
      Inhale (old_facts t (olds_of (m_post (P m))));
      Exhale (tr_asn t None (m_pre (P m)));
      If (BTerm t m)
         [Inhale [VB (BJoinable (ELit (VThread t))); VAcc (WThreadPost (ELit (VThread t))) (PLit 1)]]].

(** call.py 1591-1615 *)
Definition start_stmts (P : nat -> method) (t : nat) (opts : list nat) : list vstmt :=
  Exhale [VAcc (WMayStart (ELit (VThread t))) (PLit 1)]
  :: Assert (fold_left (fun acc m => BOr acc (BMethod t m)) opts BFalse)
  :: map (start_option P t) opts.

(** call.py 1692-1769 (types of old values left out) *)
Definition join_option (P : nat -> method) (t m : nat) : vstmt :=
  If (BAnd (BPost t) (BMethod t m))
     [Inhale (type_facts t 0 (m_types (P m)));
      Inhale (tr_asn t (Some (PCur t)) (m_post (P m)))].

(** call.py 1635-1688 (without the wait level) *)
Definition join_stmts (P : nat -> method) (t : nat) (opts : list nat) : list vstmt :=
  Assert (BJoinable (ELit (VThread t)))
  :: map (join_option P t) opts
  ++ [Exhale [VAcc (WThreadPost (ELit (VThread t))) (PCur t)]].

(** ** States and the meaning of the Viper code *)

(** Resources to which permission can be held. *)
Inductive res :=
  | RField (o : val) (f : nat) | RContainer (o : val) | RPred (p : nat) (o : val)
  | RGlobal (g : nat) | RMayStart (t : val) | RThreadPost (t : val).

Definition res_eqb (a b : res) : bool :=
  match a, b with
  | RField o f, RField o' f' => val_eqb o o' && (f =? f')
  | RContainer o, RContainer o' => val_eqb o o'
  | RPred p o, RPred p' o' => (p =? p') && val_eqb o o'
  | RGlobal g, RGlobal g' => g =? g'
  | RMayStart t, RMayStart t' => val_eqb t t'
  | RThreadPost t, RThreadPost t' => val_eqb t t'
  | _, _ => false
  end.

Inductive status := Created | Running | Done | Failed.

(** A thread: what it was created with, the old values it was started with, and the
    permissions it holds (after its end: those its postcondition promised and that nobody
    has picked up). *)
Record entry := En {
  e_meth : nat;
  e_args : list val;
  e_olds : list ((nat * nat) * val);
  e_status : status;
  e_perm : res -> Q }.

(** The heap and the threads; thread 0 is the main thread. *)
Record state := St { heap : val -> nat -> val; table : list entry }.

Definition default_entry : entry := En 0 [] [] Created (fun _ => 0%Q).
Definition thread (st : state) (t : nat) : entry := nth t (table st) default_entry.

Fixpoint assoc (o : nat * nat) (l : list ((nat * nat) * val)) : val :=
  match l with
  | [] => VInt 0
  | (o', v) :: l' => if (fst o =? fst o') && (snd o =? snd o') then v else assoc o l'
  end.

Definition add_val (a b : val) : val :=
  match a, b with VInt x, VInt y => VInt (x + y) | _, _ => VInt 0 end.

(** Uninterpreted functions are read off the threads: getArg and getMethod are what the
    thread was created with, getOld what it was started with. *)
Fixpoint eval (st : state) (e : vexp) : val :=
  match e with
  | EGetArg t i => nth i (e_args (thread st t)) (VInt 0)
  | EGetOld t i f => assoc (i, f) (e_olds (thread st t))
  | ELit v => v
  | EField e f => heap st (eval st e) f
  | EAdd a b => add_val (eval st a) (eval st b)
  end.

Definition eval_res (st : state) (r : vres) : res :=
  match r with
  | WField e f => RField (eval st e) f
  | WContainer e => RContainer (eval st e)
  | WPred p e => RPred p (eval st e)
  | WGlobal g => RGlobal g
  | WMayStart e => RMayStart (eval st e)
  | WThreadPost e => RThreadPost (eval st e)
  end.

Fixpoint eval_perm (p : res -> Q) (x : vperm) : Q :=
  match x with
  | PLit q => q
  | PMul a b => (eval_perm p a * eval_perm p b)%Q
  | PCur t => p (RThreadPost (VThread t))
  end.

Definition started (s : status) : bool := match s with Created => false | _ => true end.

(** A thread is joinable if it has been started and its target promised to terminate. *)
Definition joinable (P : nat -> method) (st : state) (v : val) : bool :=
  match v with
  | VThread t => started (e_status (thread st t))
                 && m_term (P (e_meth (thread st t))) (e_args (thread st t))
  | _ => false
  end.

Fixpoint truth (sub : nat -> nat -> bool) (P : nat -> method) (st : state) (p : res -> Q)
    (b : vbool) : bool :=
  match b with
  | BTrue => true
  | BFalse => false
  | BSame a b => val_eqb (eval st a) (eval st b)
  | BIff a b => Bool.eqb (truth sub P st p a) (truth sub P st p b)
  | BAnd a b => truth sub P st p a && truth sub P st p b
  | BOr a b => truth sub P st p a || truth sub P st p b
  | BType e t => has_type sub (eval st e) t
  | BMethod t m => e_meth (thread st t) =? m
  | BJoinable e => joinable P st (eval st e)
  | BTerm t m => m_term (P m) (e_args (thread st t))
  | BPost t => negb (Qle_bool (p (RThreadPost (VThread t))) 0)
  end.

Definition plus (p : res -> Q) (r : res) (q : Q) : res -> Q :=
  fun r' => if res_eqb r r' then (p r' + q)%Q else p r'.

Definition minus (p : res -> Q) (r : res) (q : Q) : res -> Q :=
  fun r' => if res_eqb r r' then (p r' - q)%Q else p r'.

(** Exhale: permissions must be there and are given away, facts must be true. *)
Fixpoint exhale (sub : nat -> nat -> bool) (P : nat -> method) (st : state) (p : res -> Q)
    (l : list vassert) : option (res -> Q) :=
  match l with
  | [] => Some p
  | VAcc r x :: l' =>
      let r := eval_res st r in
      let q := eval_perm p x in
      if Qle_bool 0 q && Qle_bool q (p r) then exhale sub P st (minus p r q) l' else None
  | VB b :: l' => if truth sub P st p b then exhale sub P st p l' else None
  end.

(** Inhale: permissions are added, facts are assumed; the result says whether the assumed
    facts are in fact true. *)
Fixpoint inhale (sub : nat -> nat -> bool) (P : nat -> method) (st : state) (p : res -> Q)
    (l : list vassert) : (res -> Q) * bool :=
  match l with
  | [] => (p, true)
  | VAcc r x :: l' => inhale sub P st (plus p (eval_res st r) (eval_perm p x)) l'
  | VB b :: l' =>
      let (p', ok) := inhale sub P st p l' in (p', truth sub P st p b && ok)
  end.

(** One statement: None if a check fails; otherwise the permissions afterwards and whether
    everything assumed was true. *)
Fixpoint exec1 (sub : nat -> nat -> bool) (P : nat -> method) (st : state) (p : res -> Q)
    (s : vstmt) {struct s} : option ((res -> Q) * bool) :=
  match s with
  | Exhale l => option_map (fun p' => (p', true)) (exhale sub P st p l)
  | Inhale l => Some (inhale sub P st p l)
  | Assert b => if truth sub P st p b then Some (p, true) else None
  | If b l =>
      if truth sub P st p b
      then (fix go (p : res -> Q) (l : list vstmt) : option ((res -> Q) * bool) :=
              match l with
              | [] => Some (p, true)
              | s :: l' =>
                  match exec1 sub P st p s with
                  | None => None
                  | Some (p1, ok1) =>
                      match go p1 l' with
                      | None => None
                      | Some (p2, ok2) => Some (p2, ok1 && ok2)
                      end
                  end
              end) p l
      else Some (p, true)
  end.

Fixpoint exec (sub : nat -> nat -> bool) (P : nat -> method) (st : state) (p : res -> Q)
    (l : list vstmt) : option ((res -> Q) * bool) :=
  match l with
  | [] => Some (p, true)
  | s :: l' =>
      match exec1 sub P st p s with
      | None => None
      | Some (p1, ok1) =>
          match exec sub P st p1 l' with
          | None => None
          | Some (p2, ok2) => Some (p2, ok1 && ok2)
          end
      end
  end.

(** ** Executions of a program all of whose checks succeed *)

Fixpoint update (l : list entry) (t : nat) (e : entry) : list entry :=
  match l, t with
  | [], _ => []
  | _ :: l', 0 => e :: l'
  | x :: l', S t' => x :: update l' t' e
  end.

Definition set_thread (st : state) (t : nat) (e : entry) : state :=
  St (heap st) (update (table st) t e).

Definition set_perm (st : state) (t : nat) (p : res -> Q) : state :=
  let e := thread st t in set_thread st t (En (e_meth e) (e_args e) (e_olds e) (e_status e) p).

(** The permissions a list of assertions speaks about. *)
Fixpoint amounts (st : state) (l : list vassert) (r : res) : Q :=
  match l with
  | [] => 0%Q
  | VAcc r' x :: l' =>
      ((if res_eqb (eval_res st r') r then eval_perm (fun _ => 0%Q) x else 0) + amounts st l' r)%Q
  | VB _ :: l' => amounts st l' r
  end.

Fixpoint total_of (l : list entry) (r : res) : Q :=
  match l with [] => 0%Q | e :: l' => (e_perm e r + total_of l' r)%Q end.

(** What a step of the program does; for thread operations, whether all that the generated
    code assumes is true. *)
Inductive label :=
  | LOther
  | LFail (t : nat)
  | LCreate (i t m : nat) (args : list val) (ok : bool)
  | LStart (i t : nat) (opts : list nat) (ok : bool)
  | LJoin (i t : nat) (opts : list nat) (ok : bool).

Definition thread_resource (r : res) : bool :=
  match r with RMayStart _ | RThreadPost _ => true | _ => false end.

(** The state in which the started method begins: Python's old values. *)
Definition begin_thread (P : nat -> method) (st : state) (t : nat) : state :=
  let e := thread st t in
  set_thread st t
    (En (e_meth e) (e_args e)
        (map (fun o => (o, heap st (nth (fst o) (e_args e) (VInt 0)) (snd o)))
             (olds_of (m_post (P (e_meth e)))))
        Running (e_perm e)).

Inductive step (sub : nat -> nat -> bool) (P : nat -> method) : state -> label -> state -> Prop :=
  (* an assignment to a field *)
  | s_write i o f v st :
      i < length (table st) -> e_status (thread st i) = Running ->
      (1 <= e_perm (thread st i) (RField o f))%Q ->
      step sub P st LOther
        (St (fun o' f' => if val_eqb o o' && (f =? f') then v else heap st o' f') (table st))
  (* a new object, list or predicate instance: something to which nobody has permission *)
  | s_new i r st :
      i < length (table st) -> e_status (thread st i) = Running ->
      thread_resource r = false -> (total_of (table st) r == 0)%Q ->
      step sub P st LOther (set_perm st i (plus (e_perm (thread st i)) r 1))
  (* permissions are given up *)
  | s_drop i p st :
      i < length (table st) -> e_status (thread st i) = Running ->
      (forall r, (0 <= p r)%Q /\ (p r <= e_perm (thread st i) r)%Q) ->
      step sub P st LOther (set_perm st i p)
  (* call.py 1506-1567: Thread(target=m, args=args); the numbers of arguments agree
     (1496-1503) *)
  | s_create i m args st p' ok :
      i < length (table st) -> e_status (thread st i) = Running ->
      length args = length (m_types (P m)) ->
      let t := length (table st) in
      let st1 := St (heap st) (table st ++ [En m args [] Created (fun _ => 0%Q)]) in
      exec sub P st1 (e_perm (thread st i)) (create_stmts t m (m_types (P m)) args) = Some (p', ok) ->
      step sub P st (LCreate i t m args ok) (set_perm st1 i p')
  (* t.start(opts) *)
  | s_start i t opts st p' ok :
      i < length (table st) -> e_status (thread st i) = Running -> t < length (table st) ->
      let st1 := begin_thread P st t in
      exec sub P st1 (e_perm (thread st i)) (start_stmts P t opts) = Some (p', ok) ->
      step sub P st (LStart i t opts ok)
        (set_perm (set_perm st1 t (amounts st1 (tr_asn t None (m_pre (P (e_meth (thread st t)))))))
                  i p')
  (* t.join(opts), when the thread has ended *)
  | s_join i t opts st p' ok :
      i < length (table st) -> e_status (thread st i) = Running -> t < length (table st) ->
      e_status (thread st t) = Done \/ e_status (thread st t) = Failed ->
      exec sub P st (e_perm (thread st i)) (join_stmts P t opts) = Some (p', ok) ->
      step sub P st (LJoin i t opts ok)
        (set_perm
           (set_perm st t (fun r => if res_eqb (RThreadPost (VThread t)) r then e_perm (thread st t) r
                                    else (e_perm (thread st t) r - (p' r - e_perm (thread st i) r))%Q))
           i p')
  (* a thread returns: its postcondition has been checked *)
  | s_finish t st p' :
      0 < t < length (table st) -> e_status (thread st t) = Running ->
      let e := thread st t in
      let l := tr_asn t None (m_post (P (e_meth e))) in
      exhale sub P st (e_perm e) l = Some p' ->
      step sub P st LOther
        (set_thread st t (En (e_meth e) (e_args e) (e_olds e) Done (amounts st l)))
  (* a thread ends with an exception *)
  | s_fail t st post p' :
      0 < t < length (table st) -> e_status (thread st t) = Running ->
      let e := thread st t in
      m_exc (P (e_meth e)) = Some post ->
      let l := tr_asn t None post in
      exhale sub P st (e_perm e) l = Some p' ->
      step sub P st (LFail t)
        (set_thread st t (En (e_meth e) (e_args e) (e_olds e) Failed (amounts st l))).

Inductive steps (sub : nat -> nat -> bool) (P : nat -> method) : state -> list label -> state -> Prop :=
  | steps_nil st : steps sub P st [] st
  | steps_snoc st1 tr st2 l st3 :
      steps sub P st1 tr st2 -> step sub P st2 l st3 -> steps sub P st1 (tr ++ [l]) st3.
