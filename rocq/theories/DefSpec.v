(** What users expect of local variables, and the programs for which it is proved. *)
From Coq Require Import List Bool Arith NArith ZArith.
From Verif Require Import NamesModel NamesSpec DefModel.
Import ListNotations.
Local Open Scope nat_scope.

(** The method has values for its parameters and runs without UnboundLocalError. *)
Definition starts (m : method) (s : store) : Prop := forall x, s x <> None <-> In x (m_args m).
Definition runs_fine (T : table) (m : method) : Prop :=
  forall s o, starts m s -> exec T (m_body m) s o -> exists s', o = ODone s'.

Fixpoint reads (e : exp) : list name :=
  match e with
  | ELit _ => []
  | EVar x => [x]
  | EAdd a b | ELt a b => reads a ++ reads b
  | EIf c a b => reads c ++ reads a ++ reads b
  | ECall _ a => reads a
  end.

(** All names in a statement. *)
Fixpoint names (s : stmt) : list name :=
  match s with
  | SSkip => []
  | SAssign x e | SAug x e => x :: reads e
  | SSeq a b => names a ++ names b
  | SIf c a b => reads c ++ names a ++ names b
  | SWhile c inv _ b => reads c ++ reads inv ++ names b
  | SFor x e inv _ b => x :: reads e ++ reads inv ++ names b
  | SInline x e _ _ _ => x :: reads e
  end.

Definition underscore : name := [95%N].

(** No calls of inlined methods, and the variable _ is not read. *)
Fixpoint plain (s : stmt) : Prop :=
  match s with
  | SSkip => True
  | SAssign _ e => ~ In underscore (reads e)
  | SAug x e => ~ In underscore (x :: reads e)
  | SSeq a b => plain a /\ plain b
  | SIf c a b => ~ In underscore (reads c) /\ plain a /\ plain b
  | SWhile c inv _ b => ~ In underscore (reads c ++ reads inv) /\ plain b
  | SFor _ e inv _ b => ~ In underscore (reads e ++ reads inv) /\ plain b
  | SInline _ _ _ _ _ => False
  end.

Definition wrap_reads (w : wrap) : list name := match w with WCond _ _ e | WAssign _ _ e => reads e end.
Definition wrap_names (w : wrap) : list name := match w with WCond _ _ e => reads e | WAssign _ x e => x :: reads e end.
Definition fun_names (p : pfun) : list name := flat_map wrap_names (pf_wraps p) ++ reads (pf_ret p).

(** The local variables of a function. *)
Definition fun_locals (p : pfun) : list name :=
  flat_map (fun w => match w with WAssign _ x _ => [x] | _ => [] end) (pf_wraps p).

(** No function has a local variable of this name. *)
Definition apart (T : table) (x : name) : Prop := forall p y, In p T -> In y (fun_locals p) -> y <> x.

(** All names consist of characters up to U+00FF (see C01); no function uses a name that is a
    local variable of a function before it; _ is not used. *)
Fixpoint table_named (T : table) : Prop :=
  match T with
  | [] => True
  | p :: T' =>
      (forall x, In x (fun_names p) -> latin1_name x /\ x <> underscore /\ apart T' x) /\ table_named T'
  end.

(** The same for the names of a method in Viper, which are different (see C02). *)
Definition method_named (T : table) (m : method) : Prop :=
  forall x, In x (names (m_body m)) ->
    latin1_name (m_sil m x) /\ apart T (m_sil m x) /\
    forall y, In y (names (m_body m)) -> m_sil m x = m_sil m y -> x = y.
