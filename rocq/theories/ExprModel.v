(** Model of the translation of expressions and assignments to Viper.

    Sources: [translators/expression.py] 109-160 (translate_expr,
    _translate_only), 713-725 (translate_Tuple), 948 (translate_Name), 1116-1189
    (translate_Attribute), 1191-1251 (UnaryOp, IfExp, BinOp), 1418-1459 (Compare),
    1581-1676 (BoolOp); [translators/call.py] 663-735 (method calls);
    [translators/statement.py] 444-466 (AugAssign), 1349-1661 (assignments);
    [lib/util.py] 285-311 (join_expressions, join_three_expressions).

    Simplifications.  Boxing and unboxing between [Ref] and [Bool] is the
    identity on [val], except that conversion to [Bool] takes the truth value.
    Permissions, definedness flags, type inhales and positions are left out.
    Pure functions, calls and comparisons are the abstract operations of [env].
    An exception raised by a call ends the statement list (the jump to a
    handler is modelled in the control-flow files). *)
From Coq Require Import List ZArith Bool Arith.
From Verif Require Import ExprSpec.
Import ListNotations.

(** Viper expressions the translation builds; [TTemp] is a result variable
    created for a method call (call.py 711-715), [TGet]/[TLen]/[TSub] are the
    [__getitem__], [__len__] applications and the [Seq] take/drop built for
    assignments (statement.py 1375-1377, 1552-1555, 1604-1605). *)
Inductive texpr : Type :=
| TConst (v : val)
| TVar (x : nat)
| TTemp (n : nat)
| TField (t : texpr) (f : nat)
| TFun (f : nat) (args : list texpr)
| TTuple (args : list texpr)
| TNot (t : texpr)
| TBool (t : texpr)
| TAnd (a b : texpr)
| TOr (a b : texpr)
| TCond (c a b : texpr)
| TCmp (op : nat) (a b : texpr)
| TGet (t : texpr) (i : nat)
| TSub (t : texpr) (lo : nat) (after : nat).

(** Viper statements emitted for expressions. *)
Inductive tstmt : Type :=
| SCall (n : nat) (m : nat) (args : list texpr)
| SIf (c : texpr) (th el : list tstmt).

Definition temps := nat -> val.
Definition upd_temp (t : temps) (n : nat) (v : val) : temps :=
  fun k => if Nat.eqb n k then v else t k.

Definition seq_of (v : val) : list val := match v with VSeq vs => vs | _ => [] end.

(** Evaluation of Viper expressions.  [TCond], [TAnd], [TOr] are Viper's
    short-circuit operators; all expressions are free of effects. *)
Fixpoint teval (E : env) (l : locals) (tm : temps) (h : heap) (t : texpr) : val :=
  match t with
  | TConst v => v
  | TVar x => l x
  | TTemp n => tm n
  | TField t f => get_field h (teval E l tm h t) f
  | TFun f args => fun_sem E f h (map (teval E l tm h) args)
  | TTuple args => VSeq (map (teval E l tm h) args)
  | TNot t => VBool (negb (truthy (teval E l tm h t)))
  | TBool t => VBool (truthy (teval E l tm h t))
  | TAnd a b => VBool (truthy (teval E l tm h a) && truthy (teval E l tm h b))
  | TOr a b => VBool (truthy (teval E l tm h a) || truthy (teval E l tm h b))
  | TCond c a b => if truthy (teval E l tm h c) then teval E l tm h a else teval E l tm h b
  | TCmp op a b => VBool (cmp_sem E op h (teval E l tm h a) (teval E l tm h b))
  | TGet t i => nth i (seq_of (teval E l tm h t)) VNone
  | TSub t lo after =>
      let vs := seq_of (teval E l tm h t) in
      VSeq (skipn lo (firstn (length vs - after) vs))
  end.

Inductive tres : Type :=
| TOk (tm : temps) (h : heap)
| TExc (x : nat) (tm : temps) (h : heap).

Definition exec_seq (ex : tstmt -> temps -> heap -> tres) : list tstmt -> temps -> heap -> tres :=
  fix go ss tm h :=
    match ss with
    | [] => TOk tm h
    | s :: ss' => match ex s tm h with
                  | TOk tm' h' => go ss' tm' h'
                  | TExc x tm' h' => TExc x tm' h'
                  end
    end.

(** Execution of the emitted statements. *)
Fixpoint exec1 (E : env) (l : locals) (s : tstmt) (tm : temps) (h : heap) : tres :=
  match s with
  | SCall n m args =>
      match call_sem E m h (map (teval E l tm h) args) with
      | (h', inl v) => TOk (upd_temp tm n v) h'
      | (h', inr x) => TExc x tm h'
      end
  | SIf c th el =>
      if truthy (teval E l tm h c)
      then exec_seq (exec1 E l) th tm h
      else exec_seq (exec1 E l) el tm h
  end.

Definition exec (E : env) (l : locals) := exec_seq (exec1 E l).

(** lib/util.py 285-298: [join_expressions] on the operands converted to
    booleans; the last operand is innermost. *)
Fixpoint join_bool (is_and : bool) (ps : list texpr) : texpr :=
  match ps with
  | [] => TConst (VBool is_and)
  | [p] => TBool p
  | p :: ps' => if is_and then TAnd (TBool p) (join_bool is_and ps')
                else TOr (TBool p) (join_bool is_and ps')
  end.

(** lib/util.py 301-311 with the operators of expression.py 1634-1648. *)
Fixpoint join_val (is_and : bool) (ps : list texpr) : texpr :=
  match ps with
  | [] => TConst VNone
  | [p] => p
  | p :: ps' => if is_and then TCond (TBool p) (join_val is_and ps') p
                else TCond (TBool p) p (join_val is_and ps')
  end.

(** expression.py 1656-1671: the statements of operand [i+1] are guarded by the
    joined operands [0..i]; operands without statements emit nothing. *)
Fixpoint guard_stmts (is_and : bool) (prefix : list texpr)
  (sss : list (list tstmt)) (ps : list texpr) : list tstmt :=
  match sss, ps with
  | ss :: sss', p :: ps' =>
      let cond := if is_and then join_bool is_and prefix
                  else TNot (join_bool is_and prefix) in
      (match ss with [] => [] | _ => [SIf cond ss []] end)
        ++ guard_stmts is_and (prefix ++ [p]) sss' ps'
  | _, _ => []
  end.

(** expression.py 1441-1458: the pairwise comparisons, joined to the left. *)
Fixpoint join_cmp (acc : option texpr) (p : texpr) (rest : list (nat * texpr)) : texpr :=
  match rest with
  | [] => match acc with Some c => c | None => TConst (VBool true) end
  | (op, q) :: rest' =>
      let c := TCmp op p q in
      join_cmp (Some (match acc with None => c | Some a => TAnd a c end)) q rest'
  end.

(** The loops over operand lists: statements and expressions of the operands,
    in order, with a counter for fresh result variables. *)
Definition tr_list (tr : expr -> nat -> list tstmt * texpr * nat) :
  list expr -> nat -> list (list tstmt) * list texpr * nat :=
  fix go es n :=
    match es with
    | [] => ([], [], n)
    | e :: es' =>
        let '(s, t, n1) := tr e n in
        let '(ss, ts, n2) := go es' n1 in
        (s :: ss, t :: ts, n2)
    end.

Definition tr_plist (tr : expr -> nat -> list tstmt * texpr * nat) :
  list (nat * expr) -> nat -> list (list tstmt) * list (nat * texpr) * nat :=
  fix go es n :=
    match es with
    | [] => ([], [], n)
    | (op, e) :: es' =>
        let '(s, t, n1) := tr e n in
        let '(ss, ts, n2) := go es' n1 in
        (s :: ss, (op, t) :: ts, n2)
    end.

(** expression.py 134-136: [translate_expr] converts the result to the target
    type. *)
Definition conv (to_bool : bool) (t : texpr) : texpr := if to_bool then TBool t else t.

(** [_translate_only] with [_target_type] = Bool ([tb = true]) or Ref.
    - EField: 1167-1189; EFun (BinOp 1243-1251, pure calls, subscripts);
    - ECall: call.py 663-735: argument statements, then the call, the result is
      read from a fresh variable;
    - ETuple: 713-725; ENot: 1193-1197;
    - EBool: 1581-1676; operands are translated with [_target_type] = Bool
      (1595-1601) but not converted;
    - EIf: 1213-1241; branches are converted to [_target_type] (1219-1224);
    - ECmp: 1418-1459; the statements of all operands come first. *)
Fixpoint translate (E : env) (tb : bool) (e : expr) (n : nat) {struct e}
  : list tstmt * texpr * nat :=
  match e with
  | EConst v => ([], TConst v, n)
  | EVar x => ([], TVar x, n)
  | EField e f => let '(s, t, n1) := translate E false e n in (s, TField t f, n1)
  | EFun f args =>
      let '(ss, ts, n1) := tr_list (translate E false) args n in
      (concat ss, TFun f ts, n1)
  | ECall m args =>
      let '(ss, ts, n1) := tr_list (translate E false) args n in
      (concat ss ++ [SCall n1 m ts], TTemp n1, S n1)
  | ETuple es =>
      let '(ss, ts, n1) := tr_list (translate E false) es n in
      (concat ss, TTuple ts, n1)
  | ENot e => let '(s, t, n1) := translate E true e n in (s, TNot (conv true t), n1)
  | EBool is_and e es =>
      let '(s, t, n1) := translate E true e n in
      let '(ss, ts, n2) := tr_list (translate E true) es n1 in
      (s ++ guard_stmts is_and [t] ss ts,
       (if forallb (isb E) (e :: es) then join_bool is_and (t :: ts)
        else join_val is_and (t :: ts)),
       n2)
  | EIf c a b =>
      let '(sc, tc, n1) := translate E true c n in
      let '(sa, ta, n2) := translate E tb a n1 in
      let '(sb, tb', n3) := translate E tb b n2 in
      (sc ++ (match sa, sb with
              | [], [] => []
              | _, _ => [SIf (conv true tc) sa sb]
              end),
       TCond (conv true tc) (conv tb ta) (conv tb tb'),
       n3)
  | ECmp e rest =>
      let '(s, t, n1) := translate E false e n in
      let '(ss, ts, n2) := tr_plist (translate E false) rest n1 in
      (s ++ concat ss, join_cmp None t ts, n2)
  end.

(** translate_expr (109-140) *)
Definition translate_expr (E : env) (to_bool : bool) (e : expr) (n : nat) :=
  let '(s, t, n1) := translate E to_bool e n in (s, conv to_bool t, n1).

(** what the emitted statements and the expression part compute together *)
Definition run (E : env) (l : locals) (p : list tstmt * texpr * nat) (tm : temps) (h : heap)
  : res val :=
  match exec E l (fst (fst p)) tm h with
  | TOk tm' h' => Ok (teval E l tm' h' (snd (fst p))) h'
  | TExc x _ h' => Exc x h'
  end.

(** ** Assignments *)

(** Statements emitted for targets; [AAssertLen k exact t] is the length
    assertion of statement.py 1560-1571. *)
Inductive astmt : Type :=
| AVar (x : nat) (t : texpr)
| AField (recv : texpr) (f : nat) (t : texpr)
| AAssertLen (k : nat) (exact : bool) (t : texpr).

(** One statement: a failing assertion is a verification error, so execution
    does not go past it. *)
Definition aexec1 (E : env) (tm : temps) (s : astmt) (st : astate) : astate :=
  if a_ok st then
    let ev := teval E (a_loc st) tm (a_heap st) in
    match s with
    | AVar x t => {| a_loc := upd_loc (a_loc st) x (ev t); a_heap := a_heap st; a_ok := true |}
    | AField recv f t =>
        match ev recv with
        | VRef r => {| a_loc := a_loc st; a_heap := upd_heap (a_heap st) r f (ev t); a_ok := true |}
        | _ => {| a_loc := a_loc st; a_heap := a_heap st; a_ok := false |}
        end
    | AAssertLen k exact t =>
        match ev t with
        | VSeq vs =>
            if (if exact then Nat.eqb k (length vs) else Nat.leb k (length vs)) then st
            else {| a_loc := a_loc st; a_heap := a_heap st; a_ok := false |}
        | _ => {| a_loc := a_loc st; a_heap := a_heap st; a_ok := false |}
        end
    end
  else st.

Definition aexec (E : env) (tm : temps) (ss : list astmt) (st : astate) : astate :=
  fold_left (fun st s => aexec1 E tm s st) ss st.

(** statement.py 1537-1559, the loop over the elements of a tuple target: every
    element other than the starred one takes [rhs.__getitem__(index)] where
    [index] is its position among the targets (1371-1377); a starred one takes
    the elements from [index] up to [len(rhs) - no_after_starred]
    (1543-1555, 1604-1605). *)
Definition tgt_list (tr : target -> texpr -> list astmt) (total : nat) :
  list target -> nat -> texpr -> list astmt :=
  fix go ts index rhs :=
    match ts with
    | [] => []
    | t :: ts' =>
        (match t with
         | TgtStar x => [AVar x (TSub rhs index (total - index - 1))]
         | _ => tr t (TGet rhs index)
         end) ++ go ts' (S index) rhs
    end.

(** statement.py 1349-1465 and 1530-1573 (assign_to, _assign_single_value,
    _assign_to_tuple).  The receiver expression of an attribute target has no
    effects, so it contributes no statements. *)
Fixpoint tr_target (E : env) (t : target) (rhs : texpr) {struct t} : list astmt :=
  match t with
  | TgtVar x => [AVar x rhs]
  | TgtStar x => [AVar x rhs]
  | TgtField e f => [AField (snd (fst (translate E false e 0))) f rhs]
  | TgtTuple ts =>
      (if existsb is_star ts
       then AAssertLen (length ts - 1) false rhs
       else AAssertLen (length ts) true rhs)
        :: tgt_list (tr_target E) (length ts) ts 0 rhs
  end.

(** statement.py 1643-1661: the statements of the right-hand side, then the
    assignments, every one of which evaluates the same Viper expression. *)
Definition tr_assign (E : env) (ts : list target) (e : expr) (n : nat)
  : list tstmt * list astmt :=
  let '(s, t, _) := translate_expr E false e n in
  (s, flat_map (fun tg => tr_target E tg t) ts).

Definition exec_assign (E : env) (p : list tstmt * list astmt) (l : locals) (tm : temps)
  (h : heap) : res astate :=
  match exec E l (fst p) tm h with
  | TOk tm' h' => Ok (aexec E tm' (snd p) {| a_loc := l; a_heap := h'; a_ok := true |}) h'
  | TExc x _ h' => Exc x h'
  end.

(** statement.py 444-466: the target is translated for reading (it must not
    need statements), then the statements of the right-hand side are executed,
    then the operator is applied to both expressions. *)
Definition tr_aug (E : env) (t : target) (read : expr) (op : nat) (e : expr) (n : nat)
  : list tstmt * list astmt :=
  let '(_, tl, n1) := translate_expr E false read n in
  let '(s, tr, _) := translate_expr E false e n1 in
  (s, tr_target E t (TFun op [tl; tr])).
