(* Keeping account of obligations: the permissions that stand for them, and what contracts,
   calls and loops do to these permissions.

   Models, at the pinned commit, under src/nagini_translation/translators/obligation,
     inexhale.py 71-164 (ObligationInhaleExhale), 178-238
     types/must_invoke.py 48-56, 97-110, types/must_release.py 47-53, 81-85
     utils.py 31-50 (bound_obligations)
     manager.py 77-87 (create_leak_check)
     method_node.py 232-313
     loop_node.py 76-235
   with the default configuration. *)

From Coq Require Import List Bool Arith ZArith.
From Verif Require Import TermModel.
Import ListNotations.

(* The permissions to the bounded, unbounded and credit resources of one obligation kind,
   for each target; amounts are counted in full permissions (Acc without an amount). *)
Record perms := { bounded : Z -> nat; unbounded : Z -> nat; credit : Z -> nat }.

Definition no_perms : perms :=
  {| bounded := fun _ => 0; unbounded := fun _ => 0; credit := fun _ => 0 |}.

Inductive resource := RBounded | RUnbounded | RCredit.

(* CurrentPerm of a resource. *)
Definition perm_of (r : resource) (p : perms) : Z -> nat :=
  match r with RBounded => bounded p | RUnbounded => unbounded p | RCredit => credit p end.

Definition update (f : Z -> nat) (t : Z) (n : nat) : Z -> nat :=
  fun x => if Z.eqb x t then n else f x.

Definition set_perm (r : resource) (t : Z) (n : nat) (p : perms) : perms :=
  match r with
  | RBounded => {| bounded := update (bounded p) t n; unbounded := unbounded p;
                   credit := credit p |}
  | RUnbounded => {| bounded := bounded p; unbounded := update (unbounded p) t n;
                     credit := credit p |}
  | RCredit => {| bounded := bounded p; unbounded := unbounded p;
                  credit := update (credit p) t n |}
  end.

(* Viper's inhale and exhale of acc(resource); exhaling fails without the permission. *)
Definition inhale_acc (r : resource) (t : Z) (p : perms) : perms :=
  set_perm r t (S (perm_of r p t)) p.
Definition exhale_acc (r : resource) (t : Z) (p : perms) : option perms :=
  match perm_of r p t with
  | O => None
  | S n => Some (set_perm r t n p)
  end.

(* An obligation kind: MustRelease has no credit (must_release.py 47-53), MustInvoke has
   (must_invoke.py 48-56).  MustTerminate, which is never exhaled, is modelled in
   TermModel. *)
Inductive okind := Release | Invoke.

(* One use in a contract whose guard holds: fresh (without measure), with measure, or
   ctoken (must_invoke.py 107-110). *)
Inductive use := Fresh (t : Z) | Measured (t m : Z) | Ctoken (t : Z).

(* _construct_inhale: inexhale.py 71-80; Ctoken: must_invoke.py 107-110. *)
Definition inhale_use (x : use) (p : perms) : perms :=
  match x with
  | Fresh t => inhale_acc RUnbounded t p
  | Measured t _ => inhale_acc RBounded t p
  | Ctoken t => inhale_acc RCredit t p
  end.

(* _construct_unbounded_exhale: inexhale.py 82-92. *)
Definition unbounded_exhale (k : okind) (t : Z) (p : perms) : option perms :=
  match k with
  | Release => exhale_acc RUnbounded t p
  | Invoke => if Nat.ltb 0 (unbounded p t) then exhale_acc RUnbounded t p
              else exhale_acc RCredit t p
  end.

(* _construct_bounded_exhale: inexhale.py 94-107; check is None in postconditions and
   before a loop. *)
Definition bounded_exhale (k : okind) (check : option bool) (t : Z) (p : perms) : option perms :=
  let checks := Nat.ltb 0 (bounded p t) && match check with Some b => b | None => true end in
  if checks then exhale_acc RBounded t p else unbounded_exhale k t p.

(* construct_use_method_unbounded, construct_use_method_bounded and the exhale of
   construct_use_loop: inexhale.py 109-155, 195-201, 221-229.  map is the measure map that
   is checked, if one is: the caller's map for a precondition, none for a postcondition or
   before a loop (loop_check_before), the loop's map after an iteration. *)
Definition exhale_use (k : okind) (map : option (list entry)) (x : use) (p : perms)
    : option perms :=
  match x with
  | Fresh t => unbounded_exhale k t p
  | Measured t m =>
      bounded_exhale k
        (match map with None => None | Some mm => Some (measure_check mm t m) end) t p
  | Ctoken t => exhale_acc RCredit t p
  end.

(* A contract's uses are exhaled and inhaled one after the other. *)
Fixpoint exhale_all (k : okind) (map : option (list entry)) (l : list use) (p : perms)
    : option perms :=
  match l with
  | [] => Some p
  | x :: r => match exhale_use k map x p with
              | None => None
              | Some q => exhale_all k map r q
              end
  end.

Definition inhale_all (l : list use) (p : perms) : perms :=
  fold_left (fun p x => inhale_use x p) l p.

(* construct_obligation_bound: inexhale.py 157-164, for each fresh instance:
   utils.py 31-50. *)
Definition bound_use (x : use) (p : perms) : perms :=
  match x with
  | Fresh t =>
      if Nat.ltb 0 (unbounded p t)
      then match exhale_acc RUnbounded t p with
           | Some q => inhale_acc RBounded t q
           | None => p
           end
      else p
  | _ => p
  end.
Definition bound_all (l : list use) (p : perms) : perms :=
  fold_left (fun p x => bound_use x p) l p.

(* The measure map of a contract: measures.py 60-87.  (Uses whose guard is false are left
   out; their entries never matter.) *)
Definition map_of (l : list use) : list entry :=
  flat_map (fun x => match x with
                     | Measured t m => [{| e_guard := true; e_key := t; e_value := m |}]
                     | _ => []
                     end) l.

(* The conjunct measure > 0 of preconditions: inexhale.py 188-193. *)
Definition all_positive (l : list use) : bool :=
  forallb (fun x => match x with Measured _ m => Z.ltb 0 m | _ => true end) l.

(* create_leak_check: no permission to a bounded or unbounded resource is held, for any
   reference (ForPerm): manager.py 77-87, must_invoke.py 97-104, must_release.py 81-85. *)
Definition no_leak (p : perms) : Prop := forall t, bounded p t = 0 /\ unbounded p t = 0.

(* An activation: the permissions it holds, the measure map of the method, and, if it is an
   iteration of a loop, the loop's measure map. *)
Record frame := {
  f_perms : perms;
  f_map : list entry;
  f_loop : option (list entry)
}.

(* Start of a method body: the precondition is assumed, fresh obligations are bounded, the
   measure map is set up (method_node.py 133-146, 232-250). *)
Definition method_frame (pre : list use) : frame :=
  {| f_perms := bound_all pre (inhale_all pre no_perms);
     f_map := map_of pre; f_loop := None |}.

(* Start of a loop iteration (loop_node.py 76-97, 152-170); calls in the body are checked
   against the method's map (method_call_node.py). *)
Definition iteration_frame (outer : frame) (inv : list use) : frame :=
  {| f_perms := bound_all inv (inhale_all inv no_perms);
     f_map := f_map outer; f_loop := Some (map_of inv) |}.

Definition with_perms (f : frame) (p : perms) : frame :=
  {| f_perms := p; f_map := f_map f; f_loop := f_loop f |}.

(* Adding up permissions. *)
Definition add_perms (p q : perms) : perms :=
  {| bounded := fun t => bounded p t + bounded q t;
     unbounded := fun t => unbounded p t + unbounded q t;
     credit := fun t => credit p t + credit q t |}.

(* Steps of a running program in which all checks succeed.  A suspended activation remembers
   whether the call or loop it waits for promised to terminate. *)
Inductive event :=
| ECall (pre : list use) (promise : bool)
| EReturn (post : list use)
| ETrusted (pre post : list use) (promise : bool)
| ELoop (inv : list use) (promise : bool)
| EIterate (inv : list use)
| EExit (inv : list use)
| EBreak.

Definition stack := list (frame * bool).

(* step k ev s s': the running activation is the head of the stack.
   ECall: the precondition is exhaled against the caller's measure map and the caller leak
   check is made after it (method_node.py 272-313).
   EReturn: the postcondition is exhaled, then nothing may be left (252-270); the caller
   inhales the postcondition.
   ETrusted: a contract-only or axiomatised method, like Lock.acquire and Lock.release.
   ELoop: the invariant is exhaled before the loop, with the leak check of loop_node.py
   113-147 (for a loop whose test holds).
   EIterate: the invariant is exhaled after the body against the loop's measure map, nothing
   may be left (148-160), the next iteration begins.
   EExit: the same, but the test is false and the loop is left.
   EBreak: a jump out of the loop; the permissions of the body join the outer ones. *)
Inductive step (k : okind) : event -> stack -> stack -> Prop :=
| st_call pre promise f b rest p :
    all_positive pre = true ->
    exhale_all k (Some (f_map f)) pre (f_perms f) = Some p ->
    (promise = true \/ no_leak p) ->
    step k (ECall pre promise) ((f, b) :: rest)
      ((method_frame pre, true) :: (with_perms f p, promise) :: rest)
| st_return post f b p g c rest :
    f_loop f = None ->
    exhale_all k None post (f_perms f) = Some p -> no_leak p ->
    step k (EReturn post) ((f, b) :: (g, c) :: rest)
      ((with_perms g (inhale_all post (f_perms g)), true) :: rest)
| st_trusted pre post promise f b rest p :
    all_positive pre = true ->
    exhale_all k (Some (f_map f)) pre (f_perms f) = Some p ->
    (promise = true \/ no_leak p) ->
    step k (ETrusted pre post promise) ((f, b) :: rest)
      ((with_perms f (inhale_all post p), true) :: rest)
| st_loop inv promise f b rest p :
    all_positive inv = true ->
    exhale_all k None inv (f_perms f) = Some p ->
    (promise = true \/ no_leak p) ->
    step k (ELoop inv promise) ((f, b) :: rest)
      ((iteration_frame f inv, true) :: (with_perms f p, promise) :: rest)
| st_iterate inv f b p mm rest :
    f_loop f = Some mm -> all_positive inv = true ->
    exhale_all k (Some mm) inv (f_perms f) = Some p -> no_leak p ->
    step k (EIterate inv) ((f, b) :: rest) ((iteration_frame f inv, true) :: rest)
| st_exit inv f b p mm g c rest :
    f_loop f = Some mm ->
    exhale_all k (Some mm) inv (f_perms f) = Some p -> no_leak p ->
    step k (EExit inv) ((f, b) :: (g, c) :: rest)
      ((with_perms g (inhale_all inv (f_perms g)), true) :: rest)
| st_break f b mm g c rest :
    f_loop f = Some mm ->
    step k EBreak ((f, b) :: (g, c) :: rest)
      ((with_perms g (add_perms (f_perms f) (f_perms g)), true) :: rest).
