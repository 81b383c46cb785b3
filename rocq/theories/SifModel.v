(** Model of the probabilistic information-flow mode (--sif=prob): which checks
    the translator puts into the program, and when a pair of runs violates one.

    Modelled: the places where translators/statement.py, translators/expression.py,
    translators/call.py and sif/translators/statement.py add Assert(Low(...)) when
    ctx.sif == 'prob', and the statements around them.

    Simplifications: no heap and no contracts other than Low loop invariants;
    calls return an arbitrary value and do not raise; definedness, types,
    positions and permissions are left out; loops have no else block. *)
From Coq Require Import List ZArith Bool Arith.
From Verif Require Import SifSpec.
Import ListNotations.

(** Viper expressions that occur in the translation. *)
Inductive texpr : Type :=
| XVar (x : nat)                     (** Python variable *)
| XTmp (t : nat)                     (** variable made by the translator *)
| XInt (z : Z)
| XOp (o : value -> value -> value) (a b : texpr)
| XIf (c a b : texpr)                (** CondExp *)
| XBoolOp (isand : bool) (a : texpr) (l : list texpr)  (** joined parts of and / or *)
| XNot (a : texpr)
| XTruth (a : texpr)                 (** to_bool *)
| XClass (a : texpr)                 (** typeof *)
| XLen (a : texpr)
| XPure (p : pbody) (a : texpr)      (** call of a Viper function *)
| XMap (f : Z -> Z) (a : texpr)
| XFil (p : Z -> bool) (f : Z -> Z) (a : texpr)
| XTest (p : value -> bool) (a : texpr).  (** condition of a match pattern *)

Inductive tstmt : Type :=
| TSkip
| TSeq (a b : tstmt)
| TAssign (x : nat) (e : texpr)
| TSet (t : nat) (e : texpr)
| TCall (t f : nat) (args : list texpr)
| TNext (it has el : nat)            (** __next__ of the iterator *)
| TLow (e : texpr)                   (** Assert(Low(e)) *)
| TIf (c : texpr) (a b : tstmt)
| TWhile (c : texpr) (inv : list texpr) (body : tstmt)  (** inv: Low(e) invariants *)
| TRaise (e : texpr)
| TTry (body : tstmt) (catches : nat -> bool) (handler : tstmt)
| TFinally (body fin : tstmt)
| TReturn (e : texpr)
| TBreak
| TContinue.

(** Concatenation of Python lists of statements; an empty list is [TSkip]. *)
Definition tseq (a b : tstmt) : tstmt :=
  match a, b with
  | TSkip, _ => b
  | _, TSkip => a
  | _, _ => TSeq a b
  end.

(** expression.py 1664-1667: the condition under which operand i is evaluated:
    the joined operands before it, negated for or. *)
Definition operand_cond (isand : bool) (first : texpr) (rest : list texpr) : texpr :=
  let c := XTruth (XBoolOp isand first rest) in
  if isand then c else XNot c.

(** translate_expr in prob mode with ctx.allow_statements; the counter numbers
    the variables made by the translator. *)
Fixpoint tre (e : expr) (n : nat) : tstmt * texpr * nat :=
  match e with
  | EVar x => (TSkip, XVar x, n)
  | EInt z => (TSkip, XInt z, n)
  (* expression.py 1243-1251 translate_BinOp *)
  | EOp o a b =>
      let '(sa, xa, n1) := tre a n in
      let '(sb, xb, n2) := tre b n1 in
      (tseq sa sb, XOp o xa xb, n2)
  (* expression.py 1213-1241 translate_IfExp; the check of lines 1235-1237 *)
  | EIf c a b =>
      let '(sc, xc, n1) := tre c n in
      let '(sa, xa, n2) := tre a n1 in
      let '(sb, xb, n3) := tre b n2 in
      let body := match sa, sb with
                  | TSkip, TSkip => TSkip
                  | _, _ => TIf (XTruth xc) sa sb
                  end in
      (tseq (tseq sc (TLow (XTruth xc))) body, XIf (XTruth xc) xa xb, n3)
  (* expression.py 1581-1679 translate_BoolOp; the check of lines 1611-1613.
     The joined value expressions are [XBoolOp] (see C15 for their shape). *)
  | EBool isand e es =>
      let '(s, x, n1) := tre e n in
      let '(s2, xs, n2) := trb isand x [] es n1 in
      (tseq (tseq s (TLow (XTruth x))) s2, XBoolOp isand x xs, n2)
  (* expression.py 1430-1459 translate_Compare: every operand is translated
     unconditionally and no check is added *)
  | ECmp o1 o2 a b c =>
      let '(sa, xa, n1) := tre a n in
      let '(sb, xb, n2) := tre b n1 in
      let '(sc, xc, n3) := tre c n2 in
      (tseq (tseq sa sb) sc,
       XIf (XOp (fun u v => of_bool (o1 u v)) xa xb)
           (XOp (fun u v => of_bool (o2 u v)) xb xc) (XInt 0), n3)
  (* call.py 1262-1345 translate_normal_call: a global function or method *)
  | ECall f args =>
      let '(s, xs, n1) := trl args n in
      (tseq s (TCall n1 f xs), XTmp n1, S n1)
  (* call.py 1314-1328: method called on an object, with the check of the
     receiver's type after the receiver and before the arguments *)
  | EMeth m r args =>
      let '(sr, xr, n1) := tre r n in
      let '(s, xs, n2) := trl args n1 in
      (tseq (tseq (tseq sr (TLow (XClass xr))) s) (TCall n2 m (xr :: xs)), XTmp n2, S n2)
  (* expression.py 1243-1251 with get_func_or_method_call: no check *)
  | EDunder m r a =>
      let '(sr, xr, n1) := tre r n in
      let '(sa, xa, n2) := tre a n1 in
      (tseq (tseq sr sa) (TCall n2 m [xr; xa]), XTmp n2, S n2)
  (* call of a pure function: a Viper function application; the body of the
     function is translated by translators/pure.py, which adds no check *)
  | EPure p e =>
      let '(s, x, n1) := tre e n in (s, XPure p x, n1)
  (* expression.py 166-249 translate_ListComp; the check of lines 245-249 *)
  | EComp f e =>
      let '(s, x, n1) := tre e n in (tseq s (TLow (XLen x)), XMap f x, n1)
  (* expression.py 187-191: with a filter _create_filtered_list_comp_inhale is
     used, which adds no check (nor do set and dict comprehensions, 332-420) *)
  | EFilter p f e =>
      let '(s, x, n1) := tre e n in (s, XFil p f x, n1)
  end
with trl (es : exprs) (n : nat) : tstmt * list texpr * nat :=
  match es with
  | ENil => (TSkip, [], n)
  | ECons e es =>
      let '(s, x, n1) := tre e n in
      let '(s2, xs, n2) := trl es n1 in
      (tseq s s2, x :: xs, n2)
  end
(** operands of and / or after the first; [first :: pre] are the parts so far *)
with trb (isand : bool) (first : texpr) (pre : list texpr) (es : exprs) (n : nat)
  : tstmt * list texpr * nat :=
  match es with
  | ENil => (TSkip, [], n)
  | ECons e es =>
      let '(s, x, n1) := tre e n in
      let part := tseq s (TLow (XTruth x)) in
      let '(s2, xs, n2) := trb isand first (pre ++ [x]) es n1 in
      (tseq (TIf (operand_cond isand first pre) part TSkip) s2, x :: xs, n2)
  end.

(** Loop invariants are translated without statements (statement.py 1663-1686);
    None: the program is rejected.  Here ctx.allow_statements is False, so no
    checks are added inside; only expressions without and / or / if are modelled. *)
Fixpoint tinv (l : list expr) (n : nat) : option (list texpr) :=
  match l with
  | [] => Some []
  | e :: l =>
      match tre e n, tinv l n with
      | (TSkip, x, _), Some xs => Some (XTruth x :: xs)
      | _, _ => None
      end
  end.

(** translate_stmt in prob mode; None: rejected with InvalidProgramException. *)
Fixpoint trs (st : stmt) (n : nat) : option tstmt :=
  match st with
  | SSkip => Some TSkip
  | SSeq a b =>
      match trs a n, trs b n with Some x, Some y => Some (TSeq x y) | _, _ => None end
  (* statement.py 1643-1661 *)
  | SAssign x e => let '(s, v, _) := tre e n in Some (tseq s (TAssign x v))
  | SExpr e => let '(s, _, _) := tre e n in Some s
  (* statement.py 1066-1086 translate_stmt_If *)
  | SIf e a b =>
      let '(s, c, n1) := tre e n in
      match trs a n1, trs b n1 with
      | Some ta, Some tb =>
          Some (tseq s (TSeq (TLow (XTruth c)) (TIf (XTruth c) ta tb)))
      | _, _ => None
      end
  (* statement.py 1702-1744 translate_stmt_While: the check of lines 1714-1717
     stands before the loop only (line 1725) *)
  | SWhile e lows body =>
      match tre e n with
      | (TSkip, c, _) =>
          match tinv lows n, trs body n with
          | Some inv, Some tb => Some (TSeq (TLow (XTruth c)) (TWhile (XTruth c) inv tb))
          | _, _ => None
          end
      | _ => None   (* purity.violated, lines 1711-1712 *)
      end
  (* statement.py 759-892 translate_stmt_For: __next__, the check of lines
     806-809 and the assignment, before the loop and at the end of its body *)
  | SFor x e body =>
      let '(s, v, it) := tre e n in
      let has := S it in
      let el := S (S it) in
      let next := TSeq (TNext it has el)
                    (TSeq (TLow (XTmp has))
                          (TIf (XTruth (XTmp has)) (TAssign x (XTmp el)) TSkip)) in
      match trs body (S (S (S it))) with
      | Some tb =>
          Some (tseq s (TSeq (TSet it v)
                 (TSeq next (TWhile (XTruth (XTmp has)) [] (TSeq tb next)))))
      | None => None
      end
  (* statement.py 1088-1131 translate_stmt_Match: nested Ifs, no check *)
  | SMatch e cs =>
      let '(s, v, t) := tre e n in
      match trc cs t (S t) with
      | Some tc => Some (tseq s (TSeq (TSet t v) tc))
      | None => None
      end
  (* sif/translators/statement.py 111-124 translate_stmt_Raise *)
  | SRaise e =>
      let '(s, v, _) := tre e n in
      Some (tseq s (TSeq (TLow (XClass v)) (TRaise v)))
  (* sif/translators/statement.py 63-109 *)
  | STry body p h =>
      match trs body n, trs h n with
      | Some a, Some b => Some (TTry a p b)
      | _, _ => None
      end
  | SFinally body f =>
      match trs body n, trs f n with
      | Some a, Some b => Some (TFinally a b)
      | _, _ => None
      end
  (* sif/translators/statement.py 28-50 *)
  | SReturn e => let '(s, v, _) := tre e n in Some (tseq s (TReturn v))
  | SBreak => Some TBreak
  | SContinue => Some TContinue
  end
with trc (cs : cases) (subj n : nat) : option tstmt :=
  match cs with
  | CNil => Some TSkip
  | CCons p b cs =>
      match trs b n, trc cs subj n with
      | Some x, Some y => Some (TIf (XTest p (XTmp subj)) x y)
      | _, _ => None
      end
  end.

(** State of one of the two runs of the translated program. *)
Record tstate : Type := mk {
  st_of : store; tm_of : store; tk_of : nat; wd_of : world }.

Fixpoint pval (p : pbody) (v : value) : value :=
  match p with
  | PRet f => f v
  | PIf t a b => if t v then pval a v else pval b v
  end.

Definition join (isand : bool) (v : value) (l : list value) : value :=
  fold_left (fun a b => if Bool.eqb (truth a) isand then b else a) l v.

Fixpoint tev (t : tstate) (x : texpr) : value :=
  match x with
  | XVar y => st_of t y
  | XTmp i => tm_of t i
  | XInt z => VInt z
  | XOp o a b => o (tev t a) (tev t b)
  | XIf c a b => if truth (tev t c) then tev t a else tev t b
  | XBoolOp isand a l => join isand (tev t a) (map (tev t) l)
  | XNot a => of_bool (negb (truth (tev t a)))
  | XTruth a => of_bool (truth (tev t a))
  | XClass a => VObj (cls (tev t a)) 0
  | XLen a => VInt (Z.of_nat (length (elems (tev t a))))
  | XPure p a => pval p (tev t a)
  | XMap f a => VSeq (map f (elems (tev t a)))
  | XFil p f a => VSeq (map f (filter p (elems (tev t a))))
  | XTest p a => of_bool (p (tev t a))
  end.

Definition veqb (a b : value) : bool :=
  match a, b with
  | VInt x, VInt y => (x =? y)%Z
  | VObj c i, VObj d j => (c =? d) && (i =? j)
  | VSeq l, VSeq m => if list_eq_dec Z.eq_dec l m then true else false
  | _, _ => false
  end.

(** One side of the pair of runs; None: this run is not here (it took the other
    branch); a mode other than Go: it has left by a jump. *)
Notation side := (option (mode * tstate)).
Notation sides := (option (mode * tstate) * option (mode * tstate))%type.

Definition step1 (f : tstate -> mode * tstate) (r : side) : side :=
  match r with Some (Go, t) => Some (f t) | _ => r end.
Definition both (f : tstate -> mode * tstate) (p : sides) : sides :=
  (step1 f (fst p), step1 f (snd p)).

(** Low(e) holds unless both runs are here and disagree. *)
Definition low_ok (e : texpr) (p : sides) : bool :=
  match p with
  | (Some (Go, t1), Some (Go, t2)) => veqb (tev t1 e) (tev t2 e)
  | _ => true
  end.

(** Runs that take the branch [b] of condition [c]. *)
Definition sel (c : texpr) (b : bool) (r : side) : side :=
  match r with
  | Some (Go, t) => if Bool.eqb (truth (tev t c)) b then r else None
  | _ => None
  end.
Definition merge (c : texpr) (r ra rb : side) : side :=
  match r with
  | Some (Go, t) => if truth (tev t c) then ra else rb
  | _ => r
  end.

Definition go_on (r : side) : side :=
  match r with Some (Cont, t) => Some (Go, t) | _ => r end.
Definition cut (r : side) : side :=
  match r with Some (Go, t) => Some (Out, t) | _ => r end.
Definition leave (r : side) : side :=
  match r with Some (Brk, t) => Some (Go, t) | _ => r end.
Definition caught (p : nat -> bool) (r : side) : side :=
  match r with Some (Exc c, t) => if p c then Some (Go, t) else None | _ => None end.
Definition after_try (p : nat -> bool) (r rh : side) : side :=
  match r with Some (Exc c, t) => if p c then rh else r | _ => r end.
Definition enter_fin (r0 r : side) : side :=
  match r0, r with
  | Some (Go, _), Some (Out, _) => None
  | Some (Go, _), Some (_, t) => Some (Go, t)
  | _, _ => None
  end.
Definition after_fin (r0 r rf : side) : side :=
  match r0, r with
  | Some (Go, _), Some (Out, _) => r
  | Some (Go, _), Some (m, _) =>
      match rf with Some (Go, t) => Some (m, t) | _ => rf end
  | _, _ => r
  end.
Definition try_in (r0 r rh : side) (p : nat -> bool) : side :=
  match r0 with Some (Go, _) => after_try p r rh | _ => r end.
Definition caught_in (r0 r : side) (p : nat -> bool) : side :=
  match r0 with Some (Go, _) => caught p r | _ => None end.

Definition next1 (it has el : nat) (t : tstate) : mode * tstate :=
  let tm := tm_of t in
  (Go, match elems (tm it) with
       | [] => mk (st_of t) (upd tm has (VInt 0)) (tk_of t) (wd_of t)
       | z :: l => mk (st_of t) (upd (upd (upd tm has (VInt 1)) el (VInt z)) it (VSeq l))
                      (tk_of t) (wd_of t)
       end).

Definition call1 (i f : nat) (args : list texpr) (t : tstate) : mode * tstate :=
  (Go, mk (st_of t) (upd (tm_of t) i (wd_of t (tk_of t) f (map (tev t) args)))
          (S (tk_of t)) (wd_of t)).

(** A loop of the pair: both runs iterate together, a run that has left waits.
    The invariants are checked after every iteration. *)
Fixpoint ploop (c : texpr) (inv : list texpr) (body : sides -> option sides)
    (n : nat) (p : sides) : option sides :=
  let q := (sel c true (fst p), sel c true (snd p)) in
  let r :=
    match n with
    | O => Some (cut (fst q), cut (snd q))
    | S m =>
        match body q with
        | None => None
        | Some b =>
            let b1 := (go_on (fst b), go_on (snd b)) in
            if forallb (fun e => low_ok e b1) inv then ploop c inv body m b1 else None
        end
    end in
  match r with
  | None => None
  | Some r => Some (merge c (fst p) (fst r) (fst p), merge c (snd p) (snd r) (snd p))
  end.

(** Execution of the pair (what SIFExtendedTransformer of the Viper SIF extension
    builds out of the translated program, main.py 181-196); None: some check
    failed.  The transformer itself is not part of the repository: that its
    output behaves like this is an assumption. *)
Fixpoint prod (n : nat) (s : tstmt) (p : sides) : option sides :=
  match s with
  | TSkip => Some p
  | TSeq a b => match prod n a p with Some q => prod n b q | None => None end
  | TAssign x e =>
      Some (both (fun t => (Go, mk (upd (st_of t) x (tev t e)) (tm_of t) (tk_of t) (wd_of t))) p)
  | TSet i e =>
      Some (both (fun t => (Go, mk (st_of t) (upd (tm_of t) i (tev t e)) (tk_of t) (wd_of t))) p)
  | TCall i f args => Some (both (call1 i f args) p)
  | TNext it has el => Some (both (next1 it has el) p)
  | TLow e => if low_ok e p then Some p else None
  | TIf c a b =>
      match prod n a (sel c true (fst p), sel c true (snd p)) with
      | None => None
      | Some pa =>
          match prod n b (sel c false (fst p), sel c false (snd p)) with
          | None => None
          | Some pb => Some (merge c (fst p) (fst pa) (fst pb), merge c (snd p) (snd pa) (snd pb))
          end
      end
  | TWhile c inv body =>
      if forallb (fun e => low_ok e p) inv then
        match ploop c inv (prod n body) n p with
        | None => None
        | Some r => Some (match fst p with Some (Go, _) => leave (fst r) | _ => fst r end,
                          match snd p with Some (Go, _) => leave (snd r) | _ => snd r end)
        end
      else None
  | TRaise e => Some (both (fun t => (Exc (cls (tev t e)), t)) p)
  | TTry body pr h =>
      match prod n body p with
      | None => None
      | Some r =>
          match prod n h (caught_in (fst p) (fst r) pr, caught_in (snd p) (snd r) pr) with
          | None => None
          | Some rh => Some (try_in (fst p) (fst r) (fst rh) pr, try_in (snd p) (snd r) (snd rh) pr)
          end
      end
  | TFinally body f =>
      match prod n body p with
      | None => None
      | Some r =>
          match prod n f (enter_fin (fst p) (fst r), enter_fin (snd p) (snd r)) with
          | None => None
          | Some rf => Some (after_fin (fst p) (fst r) (fst rf), after_fin (snd p) (snd r) (snd rf))
          end
      end
  | TReturn e => Some (both (fun t => (Ret (tev t e), t)) p)
  | TBreak => Some (both (fun t => (Brk, t)) p)
  | TContinue => Some (both (fun t => (Cont, t)) p)
  end.

Definition start (w : world) (s : store) : side := Some (Go, mk s (fun _ => VInt 0) 0 w).

(** The program is translated, and no check fails in the pair of runs. *)
Definition accepted (n : nat) (st : stmt) (w1 w2 : world) (s1 s2 : store) : Prop :=
  exists t, trs st 0 = Some t /\ prod n t (start w1 s1, start w2 s2) <> None.
