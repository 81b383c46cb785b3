(* Termination promises: measure maps and the checks generated around calls and loops.

   Models, at the pinned commit, under src/nagini_translation,
     resources/measures.sil 8-36
     translators/obligation/measures.py 42-87 (MeasureMap)
     translators/obligation/obligation_info.py 155-176 (create_termination_check)
     translators/obligation/inexhale.py 178-232 (get_use_method, get_use_loop, for
       MustTerminate, which is never exhaled)
     translators/obligation/method_node.py 232-241, 272-313
     translators/obligation/method_call_node.py (the caller passes its method measure map)
     translators/obligation/loop_node.py 76-235
     translators/obligation/node_constructor.py 67-97
   with the default configuration (no check disabled). *)

From Coq Require Import List Bool Arith ZArith.
Import ListNotations.

(* An entry of a measure map, Measure$create(guard, key, value): measures.sil 10-28.
   References are numbered. *)
Record entry := { e_guard : bool; e_key : Z; e_value : Z }.

(* Measure$check: measures.sil 31-36. *)
Definition measure_check (map : list entry) (key value : Z) : bool :=
  forallb (fun m => implb (e_guard m && Z.eqb (e_key m) key) (Z.ltb value (e_value m))) map.

Section State.
  (* The states contracts are evaluated in. *)
  Context {St : Type}.

  (* A collected obligation instance: guard, target, and measure unless fresh
     (types/base.py is_fresh, get_target, get_measure). *)
  Record inst := {
    i_guard : St -> bool;
    i_target : St -> Z;
    i_measure : option (St -> Z)
  }.

  (* A MustTerminate instance: its target is the current thread and it is never fresh
     (must_terminate.py 220-254). *)
  Record tinst := { t_guard : St -> bool; t_measure : St -> Z }.

  (* MeasureMap.initialize: one entry for each non-fresh instance, incremented when a
     behavioural subtyping check is translated (measures.py 60-87).  get_all_instances puts
     together the instances of all kinds. *)
  Definition init_map (th : Z) (overriding : bool) (ts : list tinst) (os : list inst) (s : St)
      : list entry :=
    let inc v := if overriding then (v + 1)%Z else v in
    map (fun t => {| e_guard := t_guard t s; e_key := th; e_value := inc (t_measure t s) |}) ts
    ++ flat_map (fun o => match i_measure o with
                          | None => []
                          | Some m => [{| e_guard := i_guard o s; e_key := i_target o s;
                                          e_value := inc (m s) |}]
                          end) os.

  (* create_termination_check(False) against a measure map: obligation_info.py 155-176. *)
  Definition tcond (th : Z) (map : list entry) (ts : list tinst) (s : St) : bool :=
    existsb (fun t => t_guard t s && measure_check map th (t_measure t s)) ts.

  (* create_termination_check(True). *)
  Definition tcond_no_measure (ts : list tinst) (s : St) : bool :=
    existsb (fun t => t_guard t s) ts.

  (* How much permission to MustTerminate(cthread) assuming a contract gives: one full
     permission for each instance whose guard holds (inexhale.py 71-80, it is the only
     thing that gives it, and it is never taken away, must_terminate.py 232-236). *)
  Definition amount (ts : list tinst) (s : St) : nat :=
    length (filter (fun t => t_guard t s) ts).

  (* The conjunct "measure > 0" of a precondition, under the guard of the place it stands
     in: inexhale.py 188-193. *)
  Definition positive_method (ts : list tinst) (s : St) : bool :=
    forallb (fun t => implb (t_guard t s) (Z.ltb 0 (t_measure t s))) ts.

  (* The conjunct "loop condition implies measure > 0" of an invariant: inexhale.py 212-219. *)
  Definition positive_loop (cond : bool) (ts : list tinst) (s : St) : bool :=
    forallb (fun t => implb (t_guard t s) (implb cond (Z.ltb 0 (t_measure t s)))) ts.

  (* The check appended to a callee's precondition, evaluated by its caller:
     method_node.py 272-313.  map and perm are the caller's measure map and amount of
     MustTerminate; leak_ok is the outcome of the leak check for the other obligations. *)
  Inductive kind := Verified | Interface (terminating : bool).

  Definition caller_check (th : Z) (k : kind) (map : list entry) (perm : nat) (leak_ok : bool)
      (ts : list tinst) (s : St) : bool :=
    match k with
    | Interface true => measure_check map th 1
    | Interface false => Nat.eqb perm 0 && leak_ok
    | Verified => tcond th map ts s || (Nat.eqb perm 0 && leak_ok)
    end.

  (* The check before a loop: loop_node.py 113-147. *)
  Definition before_loop_check (flag cond : bool) (perm : nat) (leak_ok : bool) : bool :=
    flag || negb cond || (Nat.eqb perm 0 && leak_ok).

  (* The assertion at the end of a loop body: loop_node.py 200-227. *)
  Definition end_of_body_check (th : Z) (flag cond : bool) (map : list entry)
      (ts : list tinst) (s : St) : bool :=
    implb flag (negb cond || tcond th map ts s).

  (* A behavioural subtyping check is a method with the overridden method's contract that
     calls the overriding method with the same arguments: program.py 283-351; its measure
     map is initialised with overriding=True (method_node.py 232-241). *)
  Definition override_check (th : Z) (ts0 : list tinst) (os0 : list inst) (leak_ok : bool)
      (ts1 : list tinst) (s : St) : bool :=
    caller_check th Verified (init_map th true ts0 os0 s) (amount ts0 s) leak_ok ts1 s.
End State.
Arguments inst : clear implicits.
Arguments tinst : clear implicits.

(* Loops take their MustTerminate permission away again: the permission after the loop is
   what was held before plus what the invariant gives; the excess is exhaled
   (node_constructor.py 67-97). *)
Definition after_reset (before gained : nat) : nat :=
  let cur := before + gained in
  if Nat.ltb 0 cur then cur - (cur - before) else cur.
