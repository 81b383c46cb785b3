(** What the body of an input/output operation means, and when its operations go on
    forever. *)
From Coq Require Import List Bool Arith ZArith.
Import ListNotations.
From Verif Require Import IoModel.
Local Open Scope nat_scope.

(** Values of all variables of a body: parameters, results and existential variables. *)
Definition valuation := nat -> Z.
Fixpoint eval (s : valuation) (e : expr) : Z :=
  match e with
  | EInt z => z
  | EVar x => s x
  | EAdd a b => (eval s a + eval s b)%Z
  | ELt a b => if (eval s a <? eval s b)%Z then 1%Z else 0%Z
  | EEq a b => if (eval s a =? eval s b)%Z then 1%Z else 0%Z
  | ENot a => if (eval s a =? 0)%Z then 1%Z else 0%Z
  end.
Definition holds (s : valuation) (e : expr) : bool := negb (eval s e =? 0)%Z.

(** The operations that a body contains, where the conditions above them hold. *)
Fixpoint calls (s : valuation) (b : body) : list (nat * list Z) :=
  match b with
  | BOp o ins _ => [(o, map (eval s) ins)]
  | BPure _ => []
  | BAnd a b => calls s a ++ calls s b
  | BImp c a => if holds s c then calls s a else []
  | BIf c a b => if holds s c then calls s a else calls s b
  end.
(** W: the results of all operations. The result variables of the operations that a body
    contains have the values that these operations yield, and the conditions hold. *)
Fixpoint results_agree (W : getters) (s : valuation) (b : body) : Prop :=
  match b with
  | BOp o ins outs => forall k r, nth_error outs k = Some r -> s r = W o (map (eval s) ins) k
  | BPure _ => True
  | BAnd a b => results_agree W s a /\ results_agree W s b
  | BImp c a => if holds s c then results_agree W s a else True
  | BIf c a b => if holds s c then results_agree W s a else results_agree W s b
  end.
Fixpoint conditions (s : valuation) (b : body) : Prop :=
  match b with
  | BOp _ _ _ => True
  | BPure e => holds s e = true
  | BAnd a b => conditions s a /\ conditions s b
  | BImp c a => if holds s c then conditions s a else True
  | BIf c a b => if holds s c then conditions s a else conditions s b
  end.
(** An instance of an operation: its parameters have the given values, its own results are
    what it yields. *)
Definition instance (W : getters) (o : nat) (p : op) (v : list Z) (s : valuation) : Prop :=
  map s (params p) = v /\ forall k r, nth_error (results p) k = Some r -> s r = W o v k.

(** An operation with its inputs consists of others; the values of existential variables
    and the results of operations are up to the environment. *)
Definition expands (P : prog) (a b : nat * list Z) : Prop :=
  exists p body W s, look (fst a) P = Some p /\ def p = Some body /\
    instance W (fst a) p (snd a) s /\ results_agree W s body /\ In b (calls s body).
Inductive steps (P : prog) : nat -> nat * list Z -> nat * list Z -> Prop :=
| steps_0 a : steps P 0 a a
| steps_S n a b c : expands P a b -> steps P n b c -> steps P (S n) a c.

(** Terminates(...) and TerminationMeasure(...) of an operation with its inputs. *)
Definition with_inputs (p : op) (v : list Z) (s : valuation) : Prop := map s (params p) = v.
Definition declared_to_terminate (P : prog) (a : nat * list Z) : Prop :=
  exists p, look (fst a) P = Some p /\ forall s, with_inputs p (snd a) s -> holds s (term p) = true.
Definition declared_measure (P : prog) (a : nat * list Z) (z : Z) : Prop :=
  exists p, look (fst a) P = Some p /\ forall s, with_inputs p (snd a) s -> eval s (measure p) = z.
(** All values of the right number are possible inputs. *)
Definition inputs (P : prog) (a : nat * list Z) : Prop :=
  exists p, look (fst a) P = Some p /\ length (snd a) = length (params p).

(** Existential variables are defined outside of conditions: one that is a result under a
    condition is also one earlier in the body, outside of conditions. *)
Fixpoint in_results (b : body) : list nat :=
  match b with
  | BOp _ _ outs => outs
  | BPure _ => []
  | BAnd a b | BIf _ a b => in_results a ++ in_results b
  | BImp _ a => in_results a
  end.
Fixpoint unconditional (ex seen : list nat) (b : body) : Prop :=
  match b with
  | BOp _ _ _ | BPure _ => True
  | BAnd a b => unconditional ex seen a /\ unconditional ex (seen ++ in_results a) b
  | BImp _ _ | BIf _ _ _ => forall x, In x ex -> In x (in_results b) -> In x seen
  end.
Definition well_defined (p : op) : Prop := forall b, def p = Some b -> unconditional (existentials p) [] b.
(** The names of an operation are different. *)
Definition distinct (p : op) : Prop := NoDup (params p ++ results p ++ existentials p).
Definition well_formed (P : prog) : Prop :=
  NoDup (map fst P) /\ forall o p, In (o, p) P -> distinct p /\ well_defined p.

(** The arguments at Open are expressions of the caller: they do not use the variables that
    Open introduces. *)
Fixpoint of_caller (e : vexpr) : bool :=
  match e with
  | VAlias _ => false
  | VAdd p q | VLt p q | VEq p q => of_caller p && of_caller q
  | VNot p => of_caller p
  | VGet _ _ args => forallb of_caller args
  | VInt _ | VVar _ => true
  end.
(** All names that a body uses. *)
Fixpoint body_names (b : body) : list nat :=
  match b with
  | BOp _ ins _ => flat_map names ins
  | BPure e => names e
  | BAnd a b => body_names a ++ body_names b
  | BImp c a => names c ++ body_names a
  | BIf c a b => names c ++ body_names a ++ body_names b
  end.
Definition known_names (p : op) (b : body) : Prop := incl (body_names b) (params p ++ results p ++ existentials p).
(** The body is accepted: existential variables are defined before they are used, and their
    definitions do not depend on results. *)
Definition accepted (P : prog) (p : op) (b : body) : Prop :=
  exists ds env, check_body P p b = Some ds /\ refs (param_env p) ds = Some env.
(** A body with values v for the parameters means: for some values of the existential
    variables, its conditions hold and one may perform the operations l. *)
Definition meaning (W : getters) (o : nat) (p : op) (b : body) (v : list Z) (l : list (nat * list Z)) : Prop :=
  exists s, instance W o p v s /\ results_agree W s b /\ conditions s b /\ l = calls s b.
