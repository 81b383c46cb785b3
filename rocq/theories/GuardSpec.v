(* What "the conditions guarding an occurrence" means, stated along the path to the
   occurrence and by what assuming the contract does, without a traversal. *)

From Coq Require Import List Bool Arith.
From Verif Require Import GuardModel.
Import ListNotations.

(* at_path e p x g: following p from e leads to the sub-expression x, and g lists, outermost
   first, the conditions passed on the way: the premise of each Implies and the test (or its
   negation) of each conditional.  Premises, tests and the arguments of obligations are not
   assertions of the contract, so no path leads into them. *)
Inductive at_path : cexp -> path -> cexp -> list cexp -> Prop :=
| at_here e : at_path e [] e []
| at_node op kids i x p y g :
    nth_error kids i = Some x -> at_path x p y g -> at_path (CNode op kids) (i :: p) y g
| at_and kids i x p y g :
    nth_error kids i = Some x -> at_path x p y g -> at_path (CAnd kids) (i :: p) y g
| at_not x p y g : at_path x p y g -> at_path (CNot x) (0 :: p) y g
| at_implies a b p y g : at_path b p y g -> at_path (CImplies a b) (1 :: p) y (a :: g)
| at_then t b o p y g : at_path b p y g -> at_path (CIf t b o) (1 :: p) y (t :: g)
| at_else t b o p y g : at_path o p y g -> at_path (CIf t b o) (2 :: p) y (CNot t :: g)
| at_dom d b p y g : at_path d p y g -> at_path (CForall d b) (0 :: p) y g
| at_body d b p y g : at_path b p y g -> at_path (CForall d b) (1 :: p) y g.

(* The obligation kind of an occurrence and the condition it carries itself. *)
Inductive is_obligation : cexp -> okind -> list cexp -> Prop :=
| is_obl k args : is_obligation (CObl k args) k []
| is_sif c m : is_obligation (CTermSif c m) MustTerminateK [c].

(* A TerminatesSif stands at p. *)
Definition sif_site (e : cexp) (p : path) : Prop :=
  exists c m g, at_path e p (CTermSif c m) g.

(* taken sif I e p k: assuming (inhaling) contract e in a state described by I makes the
   method or loop take on the obligation of kind k written at p.  sif: in the information
   flow mode TerminatesSif(c, m) takes the obligation only if c holds
   (sif/translators/contract.py 129), otherwise always (contract.py 594-602).  A Forall
   takes its body once for each element, so only if there is one. *)
Inductive taken (sif : bool) (I : nat -> list bool -> bool) : cexp -> path -> okind -> Prop :=
| taken_obl k args : taken sif I (CObl k args) [] k
| taken_sif c m : (sif = true -> truth I c = true) ->
    taken sif I (CTermSif c m) [] MustTerminateK
| taken_and kids i x p k :
    nth_error kids i = Some x -> taken sif I x p k -> taken sif I (CAnd kids) (i :: p) k
| taken_implies a b p k :
    truth I a = true -> taken sif I b p k -> taken sif I (CImplies a b) (1 :: p) k
| taken_then t b o p k :
    truth I t = true -> taken sif I b p k -> taken sif I (CIf t b o) (1 :: p) k
| taken_else t b o p k :
    truth I t = false -> taken sif I o p k -> taken sif I (CIf t b o) (2 :: p) k
| taken_forall d b p k :
    truth I d = true -> taken sif I b p k -> taken sif I (CForall d b) (1 :: p) k.

(* Contracts in which no Forall occurs on the way to an assertion. *)
Fixpoint unquantified (e : cexp) : Prop :=
  match e with
  | CAnd kids => (fix go l := match l with [] => True | x :: r => unquantified x /\ go r end) kids
  | CImplies _ b => unquantified b
  | CIf _ b o => unquantified b /\ unquantified o
  | CForall _ _ => False
  | _ => True
  end.

(* Left-to-right order of positions. *)
Inductive before : path -> path -> Prop :=
| before_head i j p q : i < j -> before (i :: p) (j :: q)
| before_tail i p q : before p q -> before (i :: p) (i :: q).

(* The i-th recorded position comes before the j-th whenever i < j. *)
Definition in_source_order (l : list path) : Prop :=
  forall i j p q, i < j -> nth_error l i = Some p -> nth_error l j = Some q -> before p q.
