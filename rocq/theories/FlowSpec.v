(** Independent specification for control flow (C21, C22): a small Python
    language with loops, try/except/else/finally and with, and its semantics as
    the language reference describes it, as an interpreter with fuel. *)
From Coq Require Import List Bool Arith.
Import ListNotations.

(** Everything that is not control flow is a parameter: what simple statements,
    calls, conditions, context managers do to the program state [U]. Numbers name
    statements, expressions, classes and managers; exceptions and values are
    object identities. *)
Record world (U : Type) := {
  act : nat -> U -> U;                          (* a statement that cannot raise *)
  call : nat -> U -> U * option nat;            (* a call that may raise *)
  cond : nat -> U -> bool;                      (* a loop or if condition *)
  value : nat -> U -> nat;                      (* a returned expression *)
  exc : nat -> U -> nat;                        (* a raised expression *)
  isinst : nat -> nat -> bool;                  (* exception e is of class c *)
  use : nat -> nat -> U -> U;                   (* a statement using the exception bound by "as" *)
  enter : nat -> U -> U;                        (* __enter__ *)
  exit : nat -> option nat -> U -> U * bool     (* __exit__ with the exception or None *)
}.
Arguments act {U}. Arguments call {U}. Arguments cond {U}. Arguments value {U}.
Arguments exc {U}. Arguments isinst {U}. Arguments use {U}. Arguments enter {U}. Arguments exit {U}.

(** Class 0 is Exception. *)
Definition world_ok {U} (w : world U) : Prop := forall e, isinst w e 0 = true.

(** Statements. Loops and try/with statements carry an identity [i]. An empty
    [orelse] or [fin] means that the clause is absent. *)
Inductive stmt :=
| SAct (a : nat)
| SCall (a : nat)
| SUse (a x : nat)
| SIf (c : nat) (s1 s2 : stmts)
| SWhile (i c : nat) (body orelse : stmts)
| SBreak
| SContinue
| SReturn (v : option nat)
| SRaise (x : nat)
| STry (i : nat) (body : stmts) (hs : handlers) (orelse fin : stmts)
| SWith (i m : nat) (body : stmts)
with stmts := SNil | SCons (s : stmt) (ss : stmts)
with handlers := HNil | HCons (c : nat) (x : option nat) (body : stmts) (hs : handlers).

Inductive outcome :=
| ONormal
| OReturn (v : option nat)
| ORaise (e : nat)
| OBreak
| OContinue.

(** Names bound by "except C as x". *)
Definition bindings := list (nat * nat).
Fixpoint blookup (b : bindings) (x : nat) : option nat :=
  match b with
  | [] => None
  | (y, e) :: b' => if y =? x then Some e else blookup b' x
  end.
Definition bind (x : option nat) (e : nat) (b : bindings) : bindings :=
  match x with Some y => (y, e) :: b | None => b end.

(** [None]: out of fuel, or a use of an unbound name. *)
Fixpoint exec {U} (w : world U) (n : nat) (hb : bindings) (s : stmt) (u : U) {struct n}
  : option (outcome * U) :=
  match n with
  | O => None
  | S n' =>
    match s with
    | SAct a => Some (ONormal, act w a u)
    | SCall a =>
        match call w a u with
        | (u', Some e) => Some (ORaise e, u')
        | (u', None) => Some (ONormal, u')
        end
    | SUse a x =>
        match blookup hb x with
        | Some e => Some (ONormal, use w a e u)
        | None => None
        end
    | SIf c s1 s2 => execs w n' hb (if cond w c u then s1 else s2) u
    | SWhile i c body orelse =>
        if cond w c u then
          match execs w n' hb body u with
          | Some (ONormal, u') | Some (OContinue, u') => exec w n' hb s u'
          | Some (OBreak, u') => Some (ONormal, u')
          | r => r
          end
        else execs w n' hb orelse u
    | SBreak => Some (OBreak, u)
    | SContinue => Some (OContinue, u)
    | SReturn v =>
        Some (OReturn (match v with Some x => Some (value w x u) | None => None end), u)
    | SRaise x => Some (ORaise (exc w x u), u)
    | STry i body hs orelse fin =>
        match
          match execs w n' hb body u with
          | Some (ONormal, u') => execs w n' hb orelse u'
          | Some (ORaise e, u') => exech w n' hb hs e u'
          | r => r
          end
        with
        | Some (o, u') =>
            match execs w n' hb fin u' with
            | Some (ONormal, u'') => Some (o, u'')
            | r => r
            end
        | None => None
        end
    | SWith i m body =>
        match execs w n' hb body (enter w m u) with
        | Some (ORaise e, u') =>
            let (u'', suppress) := exit w m (Some e) u' in
            Some (if suppress then ONormal else ORaise e, u'')
        | Some (o, u') => Some (o, fst (exit w m None u'))
        | None => None
        end
    end
  end
with execs {U} (w : world U) (n : nat) (hb : bindings) (ss : stmts) (u : U) {struct n}
  : option (outcome * U) :=
  match n with
  | O => None
  | S n' =>
    match ss with
    | SNil => Some (ONormal, u)
    | SCons s ss' =>
        match exec w n' hb s u with
        | Some (ONormal, u') => execs w n' hb ss' u'
        | r => r
        end
    end
  end
with exech {U} (w : world U) (n : nat) (hb : bindings) (hs : handlers) (e : nat) (u : U) {struct n}
  : option (outcome * U) :=
  match n with
  | O => None
  | S n' =>
    match hs with
    | HNil => Some (ORaise e, u)
    | HCons c x body hs' =>
        if isinst w e c then execs w n' (bind x e hb) body u
        else exech w n' hb hs' e u
    end
  end.

(** The end of a call of the function: a value ([None] is Python's None) or an
    exception. *)
Inductive ending := Returns (v : option nat) | Raises (e : nat).

Definition py_end (o : outcome) : option ending :=
  match o with
  | ONormal => Some (Returns None)
  | OReturn v => Some (Returns v)
  | ORaise e => Some (Raises e)
  | OBreak | OContinue => None
  end.

(** Calling a function with body [ss] in state [u] ends in [r] and leaves [u']. *)
Definition py_calls {U} (w : world U) (ss : stmts) (u : U) (r : ending) (u' : U) : Prop :=
  exists n o, execs w n [] ss u = Some (o, u') /\ py_end o = Some r.

(** The identities in a program; they are distinct in every program. *)
Fixpoint ids_s (s : stmt) : list nat :=
  match s with
  | SIf _ a b => ids_ss a ++ ids_ss b
  | SWhile i _ b o => i :: ids_ss b ++ ids_ss o
  | STry i b hs o f => i :: ids_ss b ++ ids_h hs ++ ids_ss o ++ ids_ss f
  | SWith i _ b => i :: ids_ss b
  | _ => []
  end
with ids_ss (ss : stmts) : list nat :=
  match ss with SNil => [] | SCons s ss' => ids_s s ++ ids_ss ss' end
with ids_h (hs : handlers) : list nat :=
  match hs with HNil => [] | HCons _ _ b hs' => ids_ss b ++ ids_h hs' end.

(** ** The fragment of the positive theorem. *)

Definition is_nil (ss : stmts) : bool := match ss with SNil => true | _ => false end.

Fixpoint catchall (hs : handlers) : bool :=
  match hs with HNil => false | HCons c _ _ hs' => (c =? 0) || catchall hs' end.
Definition no_handlers (hs : handlers) : bool := match hs with HNil => true | _ => false end.
Fixpoint names_h (hs : handlers) : list nat :=
  match hs with
  | HNil => []
  | HCons _ (Some x) _ hs' => x :: names_h hs'
  | HCons _ None _ hs' => names_h hs'
  end.

(** Might an exception leave the statement? *)
Fixpoint may_raise_s (s : stmt) : bool :=
  match s with
  | SCall _ | SRaise _ => true
  | SIf _ a b => may_raise a || may_raise b
  | SWhile _ _ b o => may_raise b || may_raise o
  | STry _ b hs o f => (may_raise b && negb (catchall hs)) || may_raise_h hs || may_raise o || may_raise f
  | SWith _ _ b => may_raise b
  | _ => false
  end
with may_raise (ss : stmts) : bool :=
  match ss with SNil => false | SCons s ss' => may_raise_s s || may_raise ss' end
with may_raise_h (hs : handlers) : bool :=
  match hs with HNil => false | HCons _ _ b hs' => may_raise b || may_raise_h hs' end.

(** Might a return, break or continue leave the statement? [l]: inside a loop of
    the statement considered. *)
Fixpoint may_exit_s (l : bool) (s : stmt) : bool :=
  match s with
  | SReturn _ => true
  | SBreak | SContinue => negb l
  | SIf _ a b => may_exit l a || may_exit l b
  | SWhile _ _ b o => may_exit true b || may_exit l o
  | STry _ b hs o f => may_exit l b || may_exit_h l hs || may_exit l o || may_exit l f
  | SWith _ _ b => may_exit l b
  | _ => false
  end
with may_exit (l : bool) (ss : stmts) : bool :=
  match ss with SNil => false | SCons s ss' => may_exit_s l s || may_exit l ss' end
with may_exit_h (l : bool) (hs : handlers) : bool :=
  match hs with HNil => false | HCons _ _ b hs' => may_exit l b || may_exit_h l hs' end.

(** Might an exception leave the statement that was raised in the body of a try or
    with statement inside it? *)
Fixpoint indirect_s (s : stmt) : bool :=
  match s with
  | SIf _ a b => indirect a || indirect b
  | SWhile _ _ b o => indirect b || indirect o
  | STry _ b hs o f => (may_raise b && negb (catchall hs)) || indirect_h hs || indirect o || indirect f
  | SWith _ _ b => may_raise b
  | _ => false
  end
with indirect (ss : stmts) : bool :=
  match ss with SNil => false | SCons s ss' => indirect_s s || indirect ss' end
with indirect_h (hs : handlers) : bool :=
  match hs with HNil => false | HCons _ _ b hs' => indirect b || indirect_h hs' end.

(** Bodies of finally-clauses in the fragment: simple statements, conditionals and
    returns of a value. *)
Fixpoint fin_ok_s (s : stmt) : bool :=
  match s with
  | SAct _ | SReturn (Some _) => true
  | SIf _ a b => fin_ok a && fin_ok b
  | _ => false
  end
with fin_ok (ss : stmts) : bool :=
  match ss with SNil => true | SCons s ss' => fin_ok_s s && fin_ok ss' end.

(** What surrounds a statement. *)
Record ctx := {
  c_handlers : bool;        (* the body of a try with except-clauses *)
  c_with : bool;            (* the body of a with *)
  c_fin : bool;             (* the body of a try with finally *)
  c_loop : bool;            (* the body of a loop (a break here is allowed) *)
  c_loop_fin : bool;        (* the body of a try with finally inside that loop *)
  c_names : list nat        (* exception names that may be used *)
}.

Definition mem (x : nat) (l : list nat) : bool := existsb (Nat.eqb x) l.
Definition minus (l m : list nat) : list nat := filter (fun x => negb (mem x m)) l.
Definition omem (x : option nat) (l : list nat) : list nat :=
  match x with Some y => y :: l | None => l end.

Fixpoint supported_s (g : ctx) (s : stmt) : bool :=
  match s with
  | SAct _ | SCall _ | SRaise _ | SReturn _ => true
  | SUse _ x => mem x (c_names g)
  | SIf _ a b => supported g a && supported g b
  | SWhile _ _ b o =>
      supported {| c_handlers := c_handlers g; c_with := c_with g; c_fin := c_fin g;
                   c_loop := true; c_loop_fin := false; c_names := c_names g |} b &&
      supported {| c_handlers := c_handlers g; c_with := c_with g; c_fin := c_fin g;
                   c_loop := false; c_loop_fin := false; c_names := c_names g |} o
  | SBreak | SContinue =>
      c_loop g && negb (c_with g) && (c_loop_fin g || negb (c_fin g))
  | STry _ b hs o f =>
      let has_fin := negb (is_nil f) in
      supported {| c_handlers := c_handlers g || negb (no_handlers hs); c_with := c_with g;
                   c_fin := c_fin g || has_fin; c_loop := c_loop g;
                   c_loop_fin := c_loop_fin g || has_fin; c_names := c_names g |} b &&
      supported_h g hs &&
      supported {| c_handlers := c_handlers g; c_with := c_with g; c_fin := c_fin g;
                   c_loop := c_loop g; c_loop_fin := c_loop_fin g;
                   c_names := minus (c_names g) (names_h hs) |} o &&
      (negb has_fin ||
         (negb (may_raise_h hs) && negb (may_exit_h false hs) && negb (may_raise o) && negb (may_exit false o) &&
          fin_ok f && negb (c_with g) && negb (indirect b))) &&
      (match names_h hs with [] => true | _ => negb (indirect b) end)
  | SWith _ _ b =>
      negb (c_with g) && negb (c_handlers g) && negb (indirect b) &&
      supported {| c_handlers := c_handlers g; c_with := true; c_fin := c_fin g;
                   c_loop := c_loop g; c_loop_fin := c_loop_fin g; c_names := c_names g |} b
  end
with supported (g : ctx) (ss : stmts) : bool :=
  match ss with SNil => true | SCons s ss' => supported_s g s && supported g ss' end
with supported_h (g : ctx) (hs : handlers) : bool :=
  match hs with
  | HNil => true
  | HCons _ x b hs' =>
      supported {| c_handlers := c_handlers g; c_with := c_with g; c_fin := c_fin g;
                   c_loop := c_loop g; c_loop_fin := c_loop_fin g;
                   c_names := omem x (c_names g) |} b &&
      supported_h {| c_handlers := c_handlers g; c_with := c_with g; c_fin := c_fin g;
                     c_loop := c_loop g; c_loop_fin := c_loop_fin g;
                     c_names := minus (c_names g) (omem x []) |} hs'
  end.

Definition top : ctx :=
  {| c_handlers := false; c_with := false; c_fin := false; c_loop := false;
     c_loop_fin := false; c_names := [] |}.

(** Managers whose __exit__ never returns a true value. *)
Definition no_suppress {U} (w : world U) : Prop := forall m e u, snd (exit w m e u) = false.
