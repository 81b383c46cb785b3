(** C73: contracts with exceptions. Methods, what their contracts say about the ways they
    may end, what Python does when it runs them, and what one method may do if all methods
    that it calls keep their contracts. *)
From Coq Require Import List Bool Arith Relations.
Import ListNotations.

Section Lang.
  (** Program states; exception objects, their classes, the subclass relation. *)
  Variable St : Type.
  Variable Exn : Type.
  Variable isa : Exn -> nat -> bool.

  (** How code can end. Lost: an assertion of the program does not hold. *)
  Inductive outcome := Norm (s : St) | Ret (s : St) | Raised (e : Exn) (s : St) | Brk (s : St) | Con (s : St) | Lost.
  (** The outcomes of a block that a try statement without finally does not touch, and
      those of a loop body that end the loop and its surroundings. *)
  Definition passes (o : outcome) : Prop := match o with Norm _ | Raised _ _ => False | _ => True end.
  Definition leaves (o : outcome) : Prop := match o with Ret _ | Raised _ _ | Lost => True | _ => False end.

  (** A contract: Requires about the state at the call; Ensures about that state and the
      final one; Exsures(class, condition), where the condition may mention the exception. *)
  Record contract := {
    requires : list (St -> bool);
    ensures : list (St -> St -> bool);
    exsures : list (nat * (St -> Exn -> St -> bool)) }.

  (** A call: the method that the verifier sees, the method that runs, which depends on the
      receiver, the state that the callee starts with, the state of the caller afterwards.
      A loop has an invariant and a relation between states that the body preserves (all
      that is not assigned in it stays the same). *)
  Inductive stmt :=
  | SSkip
  | SDo (f : St -> St)
  | SAssert (c : St -> bool)
  | SSeq (a b : stmt)
  | SIf (c : St -> bool) (a b : stmt)
  | SReturn (f : St -> St)
  | SRaise (e : St -> Exn)
  | SCall (static : nat) (actual : St -> nat) (enter : St -> St) (leave : St -> St -> St)
  | STry (b : stmt) (hs : handlers) (orelse : stmt)
  | SWhile (inv : St -> bool) (frame : St -> St -> Prop) (c : St -> bool) (b : stmt)
  | SBreak
  | SContinue
  with handlers := HNil | HCons (c : nat) (h : stmt) (hs : handlers).

  (** A method; without a body it is trusted to keep its contract. *)
  Record method := { sig : contract; body : option stmt; overrides : option nat }.
  Variable meth : nat -> method.

  Definition holds (l : list (St -> bool)) (s : St) : Prop := Forall (fun p => p s = true) l.

  (** The promise of a contract: a method that returns makes all Ensures true; it raises
      only exceptions of declared classes, and those make every Exsures clause true that
      names a class of the exception. *)
  Definition keeps (k : contract) (s : St) (o : outcome) : Prop :=
    match o with
    | Norm s' | Ret s' => Forall (fun p => p s s' = true) (ensures k)
    | Raised e s' =>
        (exists d p, In (d, p) (exsures k) /\ isa e d = true) /\
        (forall d p, In (d, p) (exsures k) -> isa e d = true -> p s e s' = true)
    | Brk _ | Con _ | Lost => False
    end.

  Fixpoint find_handler (e : Exn) (hs : handlers) : option stmt :=
    match hs with
    | HNil => None
    | HCons c h hs => if isa e c then Some h else find_handler e hs
    end.

  (** Python. *)
  Inductive exec : stmt -> St -> outcome -> Prop :=
  | E_skip s : exec SSkip s (Norm s)
  | E_do f s : exec (SDo f) s (Norm (f s))
  | E_assert (c : St -> bool) s : c s = true -> exec (SAssert c) s (Norm s)
  | E_lost (c : St -> bool) s : c s = false -> exec (SAssert c) s Lost
  | E_seq a b s s' o : exec a s (Norm s') -> exec b s' o -> exec (SSeq a b) s o
  | E_seq_end a b s o : exec a s o -> (forall s', o <> Norm s') -> exec (SSeq a b) s o
  | E_if (c : St -> bool) a b s o : exec (if c s then a else b) s o -> exec (SIf c a b) s o
  | E_return f s : exec (SReturn f) s (Ret (f s))
  | E_raise e s : exec (SRaise e) s (Raised (e s) s)
  | E_call m (d : St -> nat) (en : St -> St) (lv : St -> St -> St) s o : runs (d s) (en s) o ->
      exec (SCall m d en lv) s
        (match o with Norm s' | Ret s' => Norm (lv s s') | Raised e s' => Raised e (lv s s') | _ => Lost end)
  | E_try b hs oe s s' o : exec b s (Norm s') -> exec oe s' o -> exec (STry b hs oe) s o
  | E_try_caught b hs oe s e s' h o :
      exec b s (Raised e s') -> find_handler e hs = Some h -> exec h s' o -> exec (STry b hs oe) s o
  | E_try_uncaught b hs oe s e s' :
      exec b s (Raised e s') -> find_handler e hs = None -> exec (STry b hs oe) s (Raised e s')
  | E_try_out b hs oe s o : exec b s o -> passes o -> exec (STry b hs oe) s o
  | E_while_done inv fr (c : St -> bool) b s : c s = false -> exec (SWhile inv fr c b) s (Norm s)
  | E_while_step inv fr (c : St -> bool) b s o s' o' : c s = true -> exec b s o -> o = Norm s' \/ o = Con s' ->
      exec (SWhile inv fr c b) s' o' -> exec (SWhile inv fr c b) s o'
  | E_while_break inv fr (c : St -> bool) b s s' : c s = true -> exec b s (Brk s') -> exec (SWhile inv fr c b) s (Norm s')
  | E_while_out inv fr (c : St -> bool) b s o : c s = true -> exec b s o -> leaves o -> exec (SWhile inv fr c b) s o
  | E_break s : exec SBreak s (Brk s)
  | E_continue s : exec SContinue s (Con s)
  with runs : nat -> St -> outcome -> Prop :=
  | R_body m b s o : body (meth m) = Some b -> exec b s o -> runs m s o
  | R_trusted m s o : body (meth m) = None -> holds (requires (sig (meth m))) s ->
      keeps (sig (meth m)) s o -> runs m s o
  | R_misused m s : body (meth m) = None -> ~ holds (requires (sig (meth m))) s -> runs m s Lost.

  (** One method by itself: calls do anything that the contract of the method that the
      verifier sees allows, and are lost if its precondition does not hold; iterations of a
      loop start in any state with the invariant and the same frame, and must keep the
      invariant. *)
  Inductive alone : stmt -> St -> outcome -> Prop :=
  | A_skip s : alone SSkip s (Norm s)
  | A_do f s : alone (SDo f) s (Norm (f s))
  | A_assert (c : St -> bool) s : c s = true -> alone (SAssert c) s (Norm s)
  | A_lost (c : St -> bool) s : c s = false -> alone (SAssert c) s Lost
  | A_seq a b s s' o : alone a s (Norm s') -> alone b s' o -> alone (SSeq a b) s o
  | A_seq_end a b s o : alone a s o -> (forall s', o <> Norm s') -> alone (SSeq a b) s o
  | A_if (c : St -> bool) a b s o : alone (if c s then a else b) s o -> alone (SIf c a b) s o
  | A_return f s : alone (SReturn f) s (Ret (f s))
  | A_raise e s : alone (SRaise e) s (Raised (e s) s)
  | A_call m (d : St -> nat) (en : St -> St) (lv : St -> St -> St) s s' : holds (requires (sig (meth m))) (en s) -> keeps (sig (meth m)) (en s) (Norm s') ->
      alone (SCall m d en lv) s (Norm (lv s s'))
  | A_call_raise m (d : St -> nat) (en : St -> St) (lv : St -> St -> St) s e s' : holds (requires (sig (meth m))) (en s) -> keeps (sig (meth m)) (en s) (Raised e s') ->
      alone (SCall m d en lv) s (Raised e (lv s s'))
  | A_call_lost m (d : St -> nat) (en : St -> St) (lv : St -> St -> St) s : ~ holds (requires (sig (meth m))) (en s) -> alone (SCall m d en lv) s Lost
  | A_try b hs oe s s' o : alone b s (Norm s') -> alone oe s' o -> alone (STry b hs oe) s o
  | A_try_caught b hs oe s e s' h o :
      alone b s (Raised e s') -> find_handler e hs = Some h -> alone h s' o -> alone (STry b hs oe) s o
  | A_try_uncaught b hs oe s e s' :
      alone b s (Raised e s') -> find_handler e hs = None -> alone (STry b hs oe) s (Raised e s')
  | A_try_out b hs oe s o : alone b s o -> passes o -> alone (STry b hs oe) s o
  | A_while_start (inv : St -> bool) fr c b s : inv s = false -> alone (SWhile inv fr c b) s Lost
  | A_while_done (inv : St -> bool) (fr : St -> St -> Prop) (c : St -> bool) b s s1 :
      inv s = true -> fr s s1 -> inv s1 = true -> c s1 = false -> alone (SWhile inv fr c b) s (Norm s1)
  | A_while_break (inv : St -> bool) (fr : St -> St -> Prop) (c : St -> bool) b s s1 s' :
      inv s = true -> fr s s1 -> inv s1 = true -> c s1 = true -> alone b s1 (Brk s') -> alone (SWhile inv fr c b) s (Norm s')
  | A_while_step (inv : St -> bool) (fr : St -> St -> Prop) (c : St -> bool) b s s1 o s' :
      inv s = true -> fr s s1 -> inv s1 = true -> c s1 = true -> alone b s1 o -> o = Norm s' \/ o = Con s' ->
      inv s' = false -> alone (SWhile inv fr c b) s Lost
  | A_while_out (inv : St -> bool) (fr : St -> St -> Prop) (c : St -> bool) b s s1 o :
      inv s = true -> fr s s1 -> inv s1 = true -> c s1 = true -> alone b s1 o -> leaves o -> alone (SWhile inv fr c b) s o
  | A_break s : alone SBreak s (Brk s)
  | A_continue s : alone SContinue s (Con s).
  (** The method is correct if the methods that it calls are. *)
  Definition correct_alone (m : method) : Prop :=
    forall b s o, body m = Some b -> holds (requires (sig m)) s -> alone b s o -> keeps (sig m) s o.

  (** A contract can take the place of another one. *)
  Definition refines (sub sup : contract) : Prop :=
    forall s, holds (requires sup) s ->
      holds (requires sub) s /\ (forall o, o <> Lost -> keeps sub s o -> keeps sup s o).

  (** A program is well typed: the method that runs is the method that the verifier sees, or
      overrides it, directly or indirectly; loop bodies preserve the frame. *)
  Definition overriding (m m' : nat) : Prop := overrides (meth m) = Some m'.
  Fixpoint typed (s : stmt) : Prop :=
    match s with
    | SSeq a b | SIf _ a b => typed a /\ typed b
    | SCall m d _ _ => forall s, clos_refl_trans nat overriding (d s) m
    | STry b hs oe => typed b /\ typed_h hs /\ typed oe
    | SWhile _ fr _ b =>
        typed b /\ (forall s, fr s s) /\ (forall s s' s'', fr s s' -> fr s' s'' -> fr s s'') /\
        (forall s s', exec b s (Norm s') \/ exec b s (Con s') -> fr s s')
    | _ => True
    end
  with typed_h (hs : handlers) : Prop :=
    match hs with HNil => True | HCons _ h hs => typed h /\ typed_h hs end.
  Definition well_typed : Prop := forall m b, body (meth m) = Some b -> typed b.

  Fixpoint loop_free (s : stmt) : Prop :=
    match s with
    | SSeq a b | SIf _ a b => loop_free a /\ loop_free b
    | STry b hs oe => loop_free b /\ loop_free_h hs /\ loop_free oe
    | SWhile _ _ _ _ => False
    | _ => True
    end
  with loop_free_h (hs : handlers) : Prop :=
    match hs with HNil => True | HCons _ h hs => loop_free h /\ loop_free_h hs end.
End Lang.
Arguments Norm {St Exn}. Arguments Ret {St Exn}. Arguments Raised {St Exn}. Arguments Lost {St Exn}.
Arguments Brk {St Exn}. Arguments Con {St Exn}. Arguments SWhile {St Exn}. Arguments SBreak {St Exn}. Arguments SContinue {St Exn}.
Arguments requires {St Exn}. Arguments ensures {St Exn}. Arguments exsures {St Exn}.
Arguments SSkip {St Exn}. Arguments SDo {St Exn}. Arguments SAssert {St Exn}. Arguments SSeq {St Exn}.
Arguments SIf {St Exn}. Arguments SReturn {St Exn}. Arguments SRaise {St Exn}. Arguments SCall {St Exn}.
Arguments STry {St Exn}. Arguments HNil {St Exn}. Arguments HCons {St Exn}.
Arguments sig {St Exn}. Arguments body {St Exn}. Arguments overrides {St Exn}.
Arguments holds {St}.
