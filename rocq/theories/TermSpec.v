(* A small language of methods with recursion, dynamic dispatch, loops and jumps, what it
   means for one of its programs to terminate, and what it means that all generated
   termination checks of a program succeed. *)

From Coq Require Import List Bool Arith ZArith.
From Verif Require Import TermModel.
Import ListNotations.

Section Lang.
  Context {St : Type}.

  (* How a statement ends. *)
  Inductive outcome := Normal | Break | Continue | Return | Raise.

  (* The annotations of a loop: its test and the obligations of its invariant. *)
  Record loop := {
    l_test : St -> bool;
    l_term : list (tinst St);
    l_other : list (inst St)
  }.

  Inductive cmd :=
  | Basic (r : St -> outcome -> St -> Prop)   (* any statement without calls and loops *)
  | Then (a b : cmd)
  | Cond (t : St -> bool) (a b : cmd)
  | Catch (a b : cmd)                          (* b handles an exception of a *)
  | Call (m : nat) (enter : St -> St) (leave : St -> St -> St)
  | Loop (l : loop) (body : cmd).

  Record method := {
    m_kind : kind;
    m_pre : St -> Prop;
    m_term : list (tinst St);
    m_other : list (inst St);
    m_body : cmd;
    m_effect : St -> outcome -> St -> Prop     (* what an interface method does *)
  }.

  Record program := {
    p_method : nat -> method;
    p_overrides : nat -> nat -> Prop           (* p_overrides m n: n directly overrides m *)
  }.

  Context (P : program).

  (* A call of m may run m or any method that overrides it, directly or indirectly. *)
  Inductive runs : nat -> nat -> Prop :=
  | runs_self m : runs m m
  | runs_override m n k : p_overrides P m n -> runs n k -> runs m k.

  Definition call_outcome (o : outcome) : outcome :=
    match o with Raise => Raise | _ => Normal end.
  Definition loop_outcome (o : outcome) : outcome :=
    match o with Break => Normal | _ => o end.
  Definition goes_on (o : outcome) : Prop := o = Normal \/ o = Continue.

  (* Finished executions. *)
  Inductive exec : cmd -> St -> outcome -> St -> Prop :=
  | ex_basic (r : St -> outcome -> St -> Prop) s o s' : r s o s' -> exec (Basic r) s o s'
  | ex_then a b s s1 o s2 : exec a s Normal s1 -> exec b s1 o s2 -> exec (Then a b) s o s2
  | ex_then_jump a b s o s1 : exec a s o s1 -> o <> Normal -> exec (Then a b) s o s1
  | ex_cond (t : St -> bool) a b s o s1 : exec (if t s then a else b) s o s1 -> exec (Cond t a b) s o s1
  | ex_catch a b s s1 o s2 : exec a s Raise s1 -> exec b s1 o s2 -> exec (Catch a b) s o s2
  | ex_no_catch a b s o s1 : exec a s o s1 -> o <> Raise -> exec (Catch a b) s o s1
  | ex_call m enter leave s n o s1 : runs m n -> m_kind (p_method P n) = Verified ->
      exec (m_body (p_method P n)) (enter s) o s1 ->
      exec (Call m enter leave) s (call_outcome o) (leave s s1)
  | ex_interface m enter leave s n t o s1 : runs m n -> m_kind (p_method P n) = Interface t ->
      m_effect (p_method P n) (enter s) o s1 ->
      exec (Call m enter leave) s (call_outcome o) (leave s s1)
  | ex_loop_done l body s : l_test l s = false -> exec (Loop l body) s Normal s
  | ex_loop_step l body s o s1 o' s2 : l_test l s = true -> exec body s o s1 -> goes_on o ->
      exec (Loop l body) s1 o' s2 -> exec (Loop l body) s o' s2
  | ex_loop_exit l body s o s1 : l_test l s = true -> exec body s o s1 -> ~ goes_on o ->
      exec (Loop l body) s (loop_outcome o) s1.

  (* Executions that go on forever. *)
  CoInductive diverges : cmd -> St -> Prop :=
  | div_then1 a b s : diverges a s -> diverges (Then a b) s
  | div_then2 a b s s1 : exec a s Normal s1 -> diverges b s1 -> diverges (Then a b) s
  | div_cond (t : St -> bool) a b s : diverges (if t s then a else b) s -> diverges (Cond t a b) s
  | div_catch1 a b s : diverges a s -> diverges (Catch a b) s
  | div_catch2 a b s s1 : exec a s Raise s1 -> diverges b s1 -> diverges (Catch a b) s
  | div_call m enter leave s n : runs m n -> m_kind (p_method P n) = Verified ->
      diverges (m_body (p_method P n)) (enter s) -> diverges (Call m enter leave) s
  | div_interface m enter leave s n : runs m n ->
      m_kind (p_method P n) = Interface false -> diverges (Call m enter leave) s
  | div_body l body s : l_test l s = true -> diverges body s -> diverges (Loop l body) s
  | div_iter l body s o s1 : l_test l s = true -> exec body s o s1 -> goes_on o ->
      diverges (Loop l body) s1 -> diverges (Loop l body) s.

  (* Every execution comes to an end. *)
  Inductive terminates : cmd -> St -> Prop :=
  | te_basic r s : terminates (Basic r) s
  | te_then a b s : terminates a s ->
      (forall s1, exec a s Normal s1 -> terminates b s1) -> terminates (Then a b) s
  | te_cond (t : St -> bool) a b s : terminates (if t s then a else b) s -> terminates (Cond t a b) s
  | te_catch a b s : terminates a s ->
      (forall s1, exec a s Raise s1 -> terminates b s1) -> terminates (Catch a b) s
  | te_call m enter leave s :
      (forall n, runs m n -> m_kind (p_method P n) <> Interface false) ->
      (forall n, runs m n -> m_kind (p_method P n) = Verified ->
         terminates (m_body (p_method P n)) (enter s)) ->
      terminates (Call m enter leave) s
  | te_done l body s : l_test l s = false -> terminates (Loop l body) s
  | te_loop l body s : terminates body s ->
      (forall o s1, exec body s o s1 -> goes_on o -> terminates (Loop l body) s1) ->
      terminates (Loop l body) s.

  (* The states in which the test of a loop entered in s is evaluated. *)
  Inductive at_head (l : loop) (body : cmd) (s : St) : St -> Prop :=
  | head_first : at_head l body s s
  | head_next s1 o s2 : at_head l body s s1 -> l_test l s1 = true ->
      exec body s1 o s2 -> goes_on o -> at_head l body s s2.

  (* passes th map perm c s: in every execution of c from s, all generated checks of c
     itself (not of the methods it calls) succeed.  map is the measure map of the method
     and perm the amount of MustTerminate held.  The outcome of the leak check for the other
     obligations does not matter for termination: it may be anything. *)
  Fixpoint passes (th : Z) (map : list entry) (perm : nat) (c : cmd) (s : St) : Prop :=
    match c with
    | Basic _ => True
    | Then a b => passes th map perm a s /\
        forall s1, exec a s Normal s1 -> passes th map perm b s1
    | Cond t a b => if t s then passes th map perm a s else passes th map perm b s
    | Catch a b => passes th map perm a s /\
        forall s1, exec a s Raise s1 -> passes th map perm b s1
    | Call m enter _ =>
        let callee := p_method P m in
        m_pre callee (enter s) /\
        positive_method (m_term callee) (enter s) = true /\
        exists leak_ok,
          caller_check th (m_kind callee) map perm leak_ok (m_term callee) (enter s) = true
    | Loop l body =>
        let flag := tcond_no_measure (l_term l) s in
        positive_loop (l_test l s) (l_term l) s = true /\
        (exists leak_ok, before_loop_check flag (l_test l s) perm leak_ok = true) /\
        forall s1, at_head l body s s1 -> l_test l s1 = true ->
          passes th map (amount (l_term l) s1) body s1 /\
          forall o s2, exec body s1 o s2 -> goes_on o ->
            end_of_body_check th flag (l_test l s2)
              (init_map th false (l_term l) (l_other l) s1) (l_term l) s2 = true /\
            positive_loop (l_test l s2) (l_term l) s2 = true
    end.

  (* All checks of the program succeed in thread th: in every method for every state allowed
     by its precondition, and for every overriding method.  Interface methods are neither
     overridden nor overriding. *)
  Record accepted (th : Z) : Prop := {
    acc_body : forall m s, m_kind (p_method P m) = Verified ->
      m_pre (p_method P m) s -> positive_method (m_term (p_method P m)) s = true ->
      passes th (init_map th false (m_term (p_method P m)) (m_other (p_method P m)) s)
        (amount (m_term (p_method P m)) s) (m_body (p_method P m)) s;
    acc_over : forall m n s, p_overrides P m n -> m_pre (p_method P m) s ->
      positive_method (m_term (p_method P m)) s = true ->
      m_pre (p_method P n) s /\ positive_method (m_term (p_method P n)) s = true /\
      exists leak_ok, override_check th (m_term (p_method P m)) (m_other (p_method P m)) leak_ok
        (m_term (p_method P n)) s = true;
    acc_kind : forall m n, p_overrides P m n ->
      m_kind (p_method P m) = Verified /\ m_kind (p_method P n) = Verified
  }.
End Lang.
Arguments cmd : clear implicits.
Arguments loop : clear implicits.
Arguments method : clear implicits.
Arguments program : clear implicits.
