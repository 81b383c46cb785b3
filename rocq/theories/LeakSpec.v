(* Counting obligations. *)

From Coq Require Import List Bool Arith ZArith.
From Verif Require Import TermModel LeakModel.
Import ListNotations.

(* How many obligations on t an activation has. *)
Definition held (p : perms) (t : Z) : nat := bounded p t + unbounded p t.

Fixpoint sum_over (f : perms -> nat) (s : stack) : nat :=
  match s with
  | [] => 0
  | (fr, _) :: r => f (f_perms fr) + sum_over f r
  end.

(* How many obligations on t there are in all running and suspended activations. *)
Definition all_held (s : stack) (t : Z) : nat := sum_over (fun p => held p t) s.
Definition all_unbounded (s : stack) (t : Z) : nat := sum_over (fun p => unbounded p t) s.
Definition all_credit (s : stack) (t : Z) : nat := sum_over (fun p => credit p t) s.

(* How often a contract mentions an obligation on t, and how often a fresh one. *)
Definition mentions (t : Z) (l : list use) : nat :=
  length (filter (fun x => match x with
                           | Fresh t' | Measured t' _ => Z.eqb t' t
                           | Ctoken _ => false
                           end) l).
Definition mentions_fresh (t : Z) (l : list use) : nat :=
  length (filter (fun x => match x with Fresh t' => Z.eqb t' t | _ => false end) l).
Definition mentions_credit (t : Z) (l : list use) : nat :=
  length (filter (fun x => match x with Ctoken t' => Z.eqb t' t | _ => false end) l).

(* What an event does in the world: the obligations on t it fulfils (they are given to
   trusted code, which releases the lock, performs the action) and those it brings into
   being. *)
Definition fulfils (t : Z) (ev : event) : nat :=
  match ev with ETrusted pre _ _ => mentions t pre | _ => 0 end.
Definition brings (t : Z) (ev : event) : nat :=
  match ev with ETrusted _ post _ => mentions t post | _ => 0 end.
Definition brings_fresh (t : Z) (ev : event) : nat :=
  match ev with ETrusted _ post _ => mentions_fresh t post | _ => 0 end.
Definition brings_credit (t : Z) (ev : event) : nat :=
  match ev with ETrusted _ post _ => mentions_credit t post | _ => 0 end.
(* Fresh obligations handed to a callee or a loop iteration. *)
Definition hands_fresh (t : Z) (ev : event) : nat :=
  match ev with
  | ECall pre _ | ETrusted pre _ _ | ELoop pre _ | EIterate pre => mentions_fresh t pre
  | _ => 0
  end.

Definition total (f : event -> nat) (evs : list event) : nat :=
  fold_right (fun e n => f e + n) 0 evs.

(* Runs of any length, started by one activation that holds nothing. *)
Definition start (s : stack) : Prop :=
  exists m b, s = [({| f_perms := no_perms; f_map := m; f_loop := None |}, b)].

Inductive run (k : okind) : list event -> stack -> stack -> Prop :=
| run_nil s : run k [] s s
| run_snoc evs ev s s1 s2 : run k evs s s1 -> step k ev s1 s2 -> run k (evs ++ [ev]) s s2.

(* f hands a bounded obligation on t on to g, by a call: f calls a method with precondition
   pre, fewer bounded obligations are left in f, and g is the activation of that method or
   of a loop iteration inside it. *)
Definition hands_on (k : okind) (t : Z) (f g : frame) : Prop :=
  exists pre p, all_positive pre = true /\
    exhale_all k (Some (f_map f)) pre (f_perms f) = Some p /\
    bounded p t < bounded (f_perms f) t /\ f_map g = map_of pre.

(* f is an iteration of a loop, g the next one, and f hands a bounded obligation on. *)
Definition iterates_on (k : okind) (t : Z) (f g : frame) : Prop :=
  exists inv p mm, f_loop f = Some mm /\ all_positive inv = true /\
    exhale_all k (Some mm) inv (f_perms f) = Some p /\
    bounded p t < bounded (f_perms f) t /\ f_loop g = Some (map_of inv).
