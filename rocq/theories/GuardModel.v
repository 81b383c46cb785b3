(* Collecting the conditions that guard the obligations of a contract.

   Models, at the pinned commit,
     src/nagini_translation/lib/guard_collectors.py 26-56
     src/nagini_translation/translators/obligation/obligation_info.py 57-62, 84-98, 121-191
     src/nagini_translation/translators/obligation/types/must_terminate.py 258-277,
       must_invoke.py 78-90, must_release.py 67-79 (which calls are obligations)
     src/nagini_translation/translators/contract.py 377-391 (Implies), 594-602 and
       sif/translators/contract.py 118-131 (TerminatesSif)
     src/nagini_translation/translators/expression.py 1213-1241 (IfExp), 1581-1622 (BoolOp)
     src/nagini_translation/translators/obligation/interface.py 98-110 *)

From Coq Require Import List Bool Arith.
Import ListNotations.

(* The obligation kinds known to the obligation manager: manager.py 33-44. *)
Inductive okind := MustTerminateK | MustInvokeK | MustReleaseK.

(* identifier() comparison: the instance map is keyed by the obligation identifier,
   obligation_info.py 133. *)
Definition okind_eqb (a b : okind) : bool :=
  match a, b with
  | MustTerminateK, MustTerminateK => true
  | MustInvokeK, MustInvokeK => true
  | MustReleaseK, MustReleaseK => true
  | _, _ => false
  end.

(* Contract expressions.  CNode stands for every node without a visit_ method of its own
   (names, comparisons, or, calls of other functions, lambdas ...): op names the node.
   CAnd, CNot and CForall are such nodes too; they are kept apart because their meaning
   matters.  CForall dom body is a Forall(dom, lambda x: body); the bound variable is not
   modelled, CForall is simplified to "for each element of dom, body". *)
Inductive cexp :=
| CNode (op : nat) (kids : list cexp)
| CAnd (kids : list cexp)
| CNot (e : cexp)
| CImplies (a b : cexp)
| CIf (test body orelse : cexp)
| CForall (dom body : cexp)
| CObl (k : okind) (args : list cexp)
| CTermSif (cond measure : cexp)
| CWait.

(* A node is identified by its path from the root of the contract (Python uses the node
   object itself as the dictionary key, obligation_info.py 135 and 139). *)
Definition path := list nat.

(* The visitor's state: current_guard (guard_collectors.py 24), the recorded
   obligation instances (obligation_info.py 127-135) and wait level guards (139). *)
Record vstate := {
  current_guard : list cexp;
  instances : list (path * okind * list cexp);
  waits : list (path * list cexp)
}.

(* self.current_guard.append(c): guard_collectors.py 40, 49, 54. *)
Definition push (c : cexp) (st : vstate) : vstate :=
  {| current_guard := current_guard st ++ [c];
     instances := instances st; waits := waits st |}.

(* self.current_guard.pop(): guard_collectors.py 42, 51, 56. *)
Definition pop (st : vstate) : vstate :=
  {| current_guard := removelast (current_guard st);
     instances := instances st; waits := waits st |}.

(* Recording an instance with a copy of the guard: obligation_info.py 126-136.  extra is
   the condition appended for TerminatesSif (127-129). *)
Definition record (here : path) (k : okind) (extra : list cexp) (st : vstate) : vstate :=
  {| current_guard := current_guard st;
     instances := instances st ++ [(here, k, current_guard st ++ extra)];
     waits := waits st |}.

(* self._wait_level_guards[node] = self.current_guard[:]: obligation_info.py 138-139. *)
Definition record_wait (here : path) (st : vstate) : vstate :=
  {| current_guard := current_guard st; instances := instances st;
     waits := waits st ++ [(here, current_guard st)] |}.

(* visit with BaseObligationInfo.visit_Call (obligation_info.py 121-141),
   GuardCollectingVisitor.visit_Call and visit_IfExp (guard_collectors.py 35-56) and
   ast.NodeVisitor.generic_visit for the other nodes.  The number of arguments of
   Implies (asserted to be 2, line 39) is built into cexp. *)
Fixpoint visit (here : path) (e : cexp) (st : vstate) {struct e} : vstate :=
  match e with
  | CNode _ kids | CAnd kids =>
      (fix go (i : nat) (l : list cexp) (st : vstate) : vstate :=
         match l with
         | [] => st
         | x :: r => go (S i) r (visit (here ++ [i]) x st)
         end) 0 kids st
  | CNot x => visit (here ++ [0]) x st
  | CImplies a b => pop (visit (here ++ [1]) b (push a st))
  | CIf t b o =>
      let st1 := pop (visit (here ++ [1]) b (push t st)) in
      pop (visit (here ++ [2]) o (push (CNot t) st1))
  | CForall d b => visit (here ++ [1]) b (visit (here ++ [0]) d st)
  | CObl k _ => record here k [] st
  | CTermSif c _ => record here MustTerminateK [c] st
  | CWait => record_wait here st
  end.

(* The visitor object between traversals: current_guard is None or a list. *)
Record visitor := {
  v_guard : option (list cexp);
  v_instances : list (path * okind * list cexp);
  v_waits : list (path * list cexp)
}.

(* traverse: guard_collectors.py 26-33; None stands for a failing assert (28, 32). *)
Definition traverse (e : cexp) (v : visitor) : option visitor :=
  match v_guard v with
  | Some _ => None
  | None =>
      let st := visit [] e {| current_guard := []; instances := v_instances v;
                              waits := v_waits v |} in
      match current_guard st with
      | [] => Some {| v_guard := None; v_instances := instances st; v_waits := waits st |}
      | _ :: _ => None
      end
  end.

(* A fresh visitor: guard_collectors.py 22-24, obligation_info.py 112-119. *)
Definition fresh_visitor : visitor :=
  {| v_guard := None; v_instances := []; v_waits := [] |}.

(* The truth value of a condition.  I interprets the nodes that are not modelled. *)
Fixpoint truth (I : nat -> list bool -> bool) (e : cexp) : bool :=
  match e with
  | CNode op kids => I op (map (truth I) kids)
  | CAnd kids => forallb (truth I) kids
  | CNot x => negb (truth I x)
  | CImplies a b => implb (truth I a) (truth I b)
  | CIf t b o => if truth I t then truth I b else truth I o
  | CForall d b => implb (truth I d) (truth I b)
  | CObl _ _ | CTermSif _ _ | CWait => true
  end.

(* create_guard_expression: BigAnd of the guard's parts, obligation_info.py 57-62, 96-98.
   (sil.BigAnd of no parts is True.) *)
Definition guard_holds (I : nat -> list bool -> bool) (g : list cexp) : bool :=
  forallb (truth I) g.

(* create_termination_check(True): a disjunction over the MustTerminate instances,
   obligation_info.py 155-176. *)
Definition promise (I : nat -> list bool -> bool)
    (l : list (path * okind * list cexp)) : bool :=
  existsb (fun x => okind_eqb (snd (fst x)) MustTerminateK && guard_holds I (snd x)) l.

(* Which contracts the translator takes: an obligation may only stand where impure
   assertions are allowed.  impure is the flag of translate_expr; it is passed on by and
   (expression.py 1599-1600; in an or the flag is passed too but the result is rejected,
   1620-1622), by the second argument of Implies (contract.py 386-387), by the branches of
   a conditional (expression.py 1219-1224) and by the body of Forall (contract.py 949);
   everything else is translated with impure=False, where obligations are rejected
   (interface.py 102-110).
   Simplified: TerminatesSif is treated like MustTerminate although contract.py 1200
   lacks the check. *)
Fixpoint legal (impure : bool) (e : cexp) : bool :=
  match e with
  | CNode _ kids => forallb (legal false) kids
  | CAnd kids => forallb (legal impure) kids
  | CNot x => legal false x
  | CImplies a b => legal false a && legal impure b
  | CIf t b o => legal false t && legal impure b && legal impure o
  | CForall d b => legal false d && legal impure b
  | CObl _ args => impure && forallb (legal false) args
  | CTermSif c m => impure && legal false c && legal false m
  | CWait => true
  end.
