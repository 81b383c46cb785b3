(** Clauses of contracts in the source of a function: what is written where, what it
    means, and which places are documented. This file knows nothing about the tool. *)
From Coq Require Import List Arith Sorted.
Import ListNotations.

Inductive kind := KReq | KEns | KExs | KInv | KDec.  (* Requires Ensures Exsures Invariant Decreases *)
Definition clause := (kind * nat)%type.
Definition kind_eqb (a b : kind) : bool :=
  match a, b with KReq, KReq | KEns, KEns | KExs, KExs | KInv, KInv | KDec, KDec => true | _, _ => false end.

Inductive stmt :=
| Doc                                             (* a string *)
| Global                                          (* global x *)
| Exists (cs : list clause)                       (* IOExists(...)(lambda ...: (clauses)) *)
| Clause (k : kind) (i : nat) (inner : list clause)  (* Requires(e); clauses may (wrongly) occur in e *)
| Call (k : kind) (i : nat)                       (* o.Requires(e): the call of a method with such a name *)
| Plain (i : nat) (inner : list clause)           (* any other simple statement *)
| Block (i : nat) (bs : list (list stmt))         (* if, try, with, match: all their blocks *)
| Loop (i : nat) (body orelse : list stmt).       (* for, while *)

(** What a run of the statements consists of: clauses do nothing when they are executed.
    Loops carry their invariants. *)
Inductive act :=
| ADo (i : nat)
| ACall (k : kind) (i : nat)
| ABlock (i : nat) (bs : list (list act))
| ALoop (i : nat) (invs : list nat) (body orelse : list act).

Definition pick (k : kind) (cs : list clause) : list nat :=
  map snd (filter (fun c => kind_eqb k (fst c)) cs).
(** The clauses of a kind, in the order of the text. An invariant belongs to the innermost
    loop only, all other clauses belong to the function. *)
Fixpoint said (k : kind) (s : stmt) : list nat :=
  match s with
  | Doc | Global | Call _ _ => []
  | Exists cs => pick k cs
  | Clause k' i inner => pick k ((k', i) :: inner)
  | Plain _ inner => pick k inner
  | Block _ bs => concat (map (fun b => concat (map (said k) b)) bs)
  | Loop _ b o => match k with KInv => [] | _ => concat (map (said k) b) ++ concat (map (said k) o) end
  end.
Definition says (k : kind) (b : list stmt) : list nat := concat (map (said k) b).

Fixpoint meaning1 (s : stmt) : list act :=
  match s with
  | Doc | Global | Exists _ | Clause _ _ _ => []
  | Call k i => [ACall k i]
  | Plain i _ => [ADo i]
  | Block i bs => [ABlock i (map (fun b => concat (map meaning1 b)) bs)]
  | Loop i b o => [ALoop i (says KInv b ++ says KInv o) (concat (map meaning1 b)) (concat (map meaning1 o))]
  end.
Definition meaning (b : list stmt) : list act := concat (map meaning1 b).

(** The documented order at the beginning of a function or of a loop. *)
Definition rank (s : stmt) : nat :=
  match s with
  | Doc => 0 | Global => 1 | Exists _ => 2
  | Clause KInv _ _ => 3 | Clause KReq _ _ => 4 | Clause KDec _ _ => 5 | Clause KEns _ _ => 6 | Clause KExs _ _ => 7
  | Call _ _ | Plain _ _ | Block _ _ | Loop _ _ _ => 8
  end.
Definition is_clause (k : kind) (s : stmt) : Prop := exists i, s = Clause k i [].
(** A statement that can stand at the beginning: clauses contain no other clauses. *)
Definition heading (s : stmt) : Prop :=
  s = Doc \/ s = Global \/ (exists cs, s = Exists cs) \/ (exists k, is_clause k s).
Definition in_order (l : list stmt) : Prop := StronglySorted le (map rank l) /\ Forall heading l.

(** A statement that, if it states clauses, states only invariants, or no invariants. *)
Definition of_loop (s : stmt) : Prop :=
  match s with Clause k _ _ => k = KInv | Exists cs => Forall (fun c => fst c = KInv) cs | _ => True end.
Definition of_function (s : stmt) : Prop :=
  match s with Clause k _ _ => k <> KInv | Exists cs => Forall (fun c => fst c <> KInv) cs | _ => True end.

(** Statements of the body proper, without clauses except for the invariants of loops,
    which stand at the beginning of the loop. *)
Inductive clean : stmt -> Prop :=
| c_doc : clean Doc
| c_global : clean Global
| c_call k i : clean (Call k i)
| c_plain i : clean (Plain i [])
| c_block i bs : Forall (Forall clean) bs -> clean (Block i bs)
| c_loop i head main orelse :
    in_order head -> Forall of_loop head -> Forall clean main -> Forall clean orelse ->
    clean (Loop i (head ++ main) orelse).
(** Every clause stands where the documentation says: before the body, and
    postconditions also after it. *)
Definition well_placed (body : list stmt) : Prop :=
  exists head main tail,
    body = head ++ main ++ tail /\
    in_order head /\ Forall of_function head /\ Forall clean main /\ Forall (is_clause KEns) tail.

(** No statement, at any depth, calls a method that is named like a clause. *)
Fixpoint no_calls (s : stmt) : Prop :=
  let all (b : list stmt) := fold_right (fun s p => no_calls s /\ p) True b in
  match s with
  | Call _ _ => False
  | Block _ bs => fold_right (fun b p => all b /\ p) True bs
  | Loop _ b o => all b /\ all o
  | _ => True
  end.
(** Loops, at any depth, start and end without clauses of the function. *)
Fixpoint tidy_loops (s : stmt) : Prop :=
  let all (b : list stmt) := fold_right (fun s p => tidy_loops s /\ p) True b in
  match s with
  | Block _ bs => fold_right (fun b p => all b /\ p) True bs
  | Loop _ b o => Forall of_loop b /\ all b /\ all o
  | _ => True
  end.
(** No loops and no global statements, at any depth, as in pure functions. *)
Fixpoint no_loops (s : stmt) : Prop :=
  match s with
  | Block _ bs => fold_right (fun b p => fold_right (fun s p => no_loops s /\ p) True b /\ p) True bs
  | Loop _ _ _ | Global => False
  | _ => True
  end.

(** A function in the source, and what becomes of it. *)
Record func := { pure : bool; inline : bool; contract_only : bool; body : list stmt }.
Record contract := { requires : list nat; ensures : list nat; exsures : list nat; decreases : list nat }.
Definition stated (f : func) : contract :=
  {| requires := says KReq (body f); ensures := says KEns (body f);
     exsures := says KExs (body f); decreases := says KDec (body f) |}.
