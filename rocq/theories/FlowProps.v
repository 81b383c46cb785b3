(** C21: loops, try, raise and return in the verified program go where Python goes.
    C22: with-statements run __exit__ as Python does. *)
From Coq Require Import List Bool Arith.
From Verif Require Import FlowSpec FlowModel FlowProofs.
Import ListNotations.

(** For every program of the fragment [supported] (FlowSpec.v lists what is left
    out; the refutations below show that each restriction is needed), every
    meaning of its statements, calls, conditions and context managers, and every
    initial value of the auxiliary variables: if the Python function ends, the
    generated method ends as well, in the same state, with the same result, or
    with the same exception in its error output (an error is reported if the
    method declares none). *)
Theorem C21_control_flow_partial : forall U (w : world U) declared ss u r u',
  world_ok w -> no_suppress w -> NoDup (ids_ss ss) -> supported top ss = true ->
  py_calls w ss u r u' ->
  forall s0, vu s0 = u ->
    (exists c, viper_ends w declared ss s0 c) /\
    forall c, viper_ends w declared ss s0 c -> viper_agrees declared r u' c.
Proof. intros U. exact c21_control_flow. Qed.
Print Assumptions C21_control_flow_partial.

(** A with statement around a body of the fragment: whether the body ends
    normally, returns or raises, __exit__ runs once after it, with the exception
    exactly if there is one. *)
Theorem C22_exit_partial : forall U (w : world U) declared t m b n o u u1 r,
  world_ok w -> no_suppress w -> NoDup (t :: ids_ss b) -> indirect b = false ->
  supported {| c_handlers := false; c_with := true; c_fin := false; c_loop := false;
               c_loop_fin := false; c_names := [] |} b = true ->
  execs w n [] b (enter w m u) = Some (o, u1) -> py_end o = Some r ->
  forall s0, vu s0 = u ->
    (exists c, viper_ends w declared (SCons (SWith t m b) SNil) s0 c) /\
    forall c, viper_ends w declared (SCons (SWith t m b) SNil) s0 c ->
      viper_agrees declared r
        (fst (exit w m (match r with Raises e => Some e | Returns _ => None end) u1)) c.
Proof. intros U. exact c22_with_exit. Qed.
Print Assumptions C22_exit_partial.

(** A world for examples: the state is the trace of actions; calls with a number
    of at least 100 raise that number; loops run until the trace has the given
    length; managers with a number of at least 50 suppress. *)
Definition tw : world (list nat) := {|
  act := fun a u => u ++ [a];
  call := fun a u => (u ++ [a], if 100 <=? a then Some a else None);
  cond := fun c u => length u <? c;
  value := fun v u => v;
  exc := fun x u => x;
  isinst := fun e c => (c =? 0) || (e =? c);
  use := fun a e u => u ++ [a; e];
  enter := fun m u => u ++ [m];
  exit := fun m e u => (u ++ [m; match e with Some x => x | None => 0 end], 50 <=? m) |}.
(** The same without suppression. *)
Definition tn : world (list nat) := {|
  act := act tw; call := call tw; cond := cond tw; value := value tw; exc := exc tw;
  isinst := isinst tw; use := use tw; enter := enter tw;
  exit := fun m e u => (fst (exit tw m e u), false) |}.
Fixpoint L (l : list stmt) : stmts := match l with [] => SNil | s :: l' => SCons s (L l') end.
Definition init (e : option nat) : vstate (list nat) :=
  {| vu := []; vres := None; vmerr := None; verr := fun _ => e; vcode := fun _ => 0 |}.

(** [py_gives] and [viper_gives]: the outcome in Python and of the generated method
    that may raise: trace, result, exception. *)
Definition py_gives (w : world (list nat)) (p : list stmt) (tr : list nat) (r : ending) : Prop :=
  py_calls w (L p) [] r tr.
Definition viper_gives (w : world (list nat)) (p : list stmt) (e : option nat)
           (tr : list nat) (res err : option nat) : Prop :=
  exists s, viper_ends w true (L p) (init e) (Run [] KStop s) /\
    vu s = tr /\ vres s = res /\ vmerr s = err.

Ltac ev n := eexists; split; [exists n; vm_compute; reflexivity|repeat split].
Ltac pe n := exists n; eexists; split; [vm_compute; reflexivity|reflexivity].

Example C21_hypotheses : world_ok tn /\ no_suppress tn.
Proof. split; [intros e|intros m e u]; reflexivity. Qed.

(** A program of the fragment: a loop with try/except/as inside try/finally, a
    break out of the handler through the finally block, and a loop else. *)
Definition demo : list stmt :=
  [SWhile 5 10
     (L [STry 0 (L [STry 1 (L [SAct 1; SCall 101; SAct 2])
                         (HCons 0 (Some 8) (L [SUse 4 8; SBreak]) HNil) SNil SNil])
              HNil SNil (L [SAct 9])])
     (L [SAct 33]);
   SReturn (Some 2)].
Example C21_ex_supported : supported top (L demo) = true /\ NoDup (ids_ss (L demo)).
Proof. split; [reflexivity|]. repeat constructor; cbn; intuition discriminate. Qed.
Example C21_ex_py : py_gives tn demo [1; 101; 4; 101; 9] (Returns (Some 2)).
Proof. pe 30. Qed.
Example C21_ex_viper : viper_gives tn demo (Some 3) [1; 101; 4; 101; 9] (Some 2) None.
Proof. ev 200. Qed.

Definition demo_with : stmts := L [SAct 1; SIf 9 (L [SCall 101]) SNil; SReturn None].
Example C22_ex : indirect demo_with = false /\
  supported {| c_handlers := false; c_with := true; c_fin := false; c_loop := false;
               c_loop_fin := false; c_names := [] |} demo_with = true /\
  viper_gives tn [SWith 0 11 demo_with] None [11; 1; 101; 11; 101] None (Some 101).
Proof. split; [reflexivity|]. split; [reflexivity|]. ev 100. Qed.

(** *** What the full property would say, and why it does not hold. Every witness
    is a program whose Python behaviour differs from that of the generated
    method. *)

(** A return in a handler does not run the finally block. *)
Theorem C21_return_in_handler_refuted :
  let p := [STry 0 (L [SRaise 100]) (HCons 0 None (L [SReturn (Some 5)]) HNil) SNil (L [SAct 9])] in
  py_gives tn p [9] (Returns (Some 5)) /\ viper_gives tn p None [] (Some 5) None.
Proof. split; [pe 20|ev 100]. Qed.
Print Assumptions C21_return_in_handler_refuted.

(** A break out of a loop inside a try-finally runs the finally block and skips the
    rest of the try body. *)
Theorem C21_inner_loop_break_refuted :
  let p := [STry 0 (L [SWhile 1 9 (L [SBreak]) SNil; SAct 7]) HNil SNil (L [SAct 8])] in
  py_gives tn p [7; 8] (Returns None) /\ viper_gives tn p None [8] None None.
Proof. split; [pe 20|ev 100]. Qed.
Print Assumptions C21_inner_loop_break_refuted.

(** ... and with a loop around the try statement it even leaves that loop. *)
Theorem C21_inner_break_leaves_outer_refuted :
  let p := [SWhile 2 5 (L [STry 0 (L [SWhile 1 9 (L [SAct 1; SBreak]) SNil; SAct 7]) HNil SNil (L [SAct 8])]) SNil] in
  py_gives tn p [1; 7; 8; 1; 7; 8] (Returns None) /\ viper_gives tn p None [1; 8] None None.
Proof. split; [pe 40|ev 200]. Qed.
Print Assumptions C21_inner_break_leaves_outer_refuted.

(** An exception that passes an inner try statement is lost at the finally block
    of an outer one: the method ends without exception. *)
Theorem C21_exception_lost_at_finally_refuted :
  let p := [STry 0 (L [STry 1 (L [SRaise 100]) (HCons 3 None SNil HNil) SNil SNil])
                 HNil SNil (L [SAct 9])] in
  py_gives tn p [9] (Raises 100) /\ viper_gives tn p None [9] None None.
Proof. split; [pe 20|ev 100]. Qed.
Print Assumptions C21_exception_lost_at_finally_refuted.

(** "as e" of an outer handler does not name an exception that passed an inner try
    statement; it has whatever value the variable had. *)
Theorem C21_outer_handler_name_refuted :
  let p := [STry 0 (L [STry 1 (L [SRaise 100]) (HCons 3 None SNil HNil) SNil SNil])
                 (HCons 0 (Some 1) (L [SUse 4 1]) HNil) SNil SNil] in
  py_gives tn p [4; 100] (Returns None) /\ viper_gives tn p (Some 77) [4; 77] None None.
Proof. split; [pe 20|ev 100]. Qed.
Print Assumptions C21_outer_handler_name_refuted.

(** A return without value in a finally block keeps the value of an earlier
    return. *)
Theorem C21_bare_return_refuted :
  let p := [STry 0 (L [SReturn (Some 5)]) HNil SNil (L [SReturn None])] in
  py_gives tn p [] (Returns None) /\ viper_gives tn p None [] (Some 5) None.
Proof. split; [pe 20|ev 100]. Qed.
Print Assumptions C21_bare_return_refuted.

(** A loop in a finally block erases the result of a pending return. *)
Theorem C21_loop_in_finally_refuted :
  let p := [STry 0 (L [SReturn (Some 5)]) HNil SNil (L [SWhile 1 2 (L [SAct 1]) SNil])] in
  py_gives tn p [1; 1] (Returns (Some 5)) /\ viper_gives tn p None [1; 1] None None.
Proof. split; [pe 20|ev 100]. Qed.
Print Assumptions C21_loop_in_finally_refuted.

(** A break in the else part of a loop does not leave the outer loop. *)
Theorem C21_break_in_loop_else_refuted :
  let p := [SWhile 0 3 (L [SAct 1; SWhile 1 0 SNil (L [SBreak])]) SNil] in
  py_gives tn p [1] (Returns None) /\ viper_gives tn p None [1; 1; 1] None None.
Proof. split; [pe 20|ev 100]. Qed.
Print Assumptions C21_break_in_loop_else_refuted.

(** An exception raised in a finally block that is caught further out leaves the
    result of the pending return in place. *)
Theorem C21_raise_in_finally_refuted :
  let p := [STry 0 (L [STry 1 (L [SReturn (Some 5)]) HNil SNil (L [SRaise 100])])
                 (HCons 0 None SNil HNil) SNil SNil] in
  py_gives tn p [] (Returns None) /\ viper_gives tn p None [] (Some 5) None.
Proof. split; [pe 20|ev 100]. Qed.
Print Assumptions C21_raise_in_finally_refuted.

(** An exception in a with body inside a try with a matching handler goes to the
    handler without calling __exit__. *)
Theorem C22_with_in_try_refuted :
  let p := [STry 0 (L [SWith 1 11 (L [SRaise 100])]) (HCons 0 None (L [SAct 5]) HNil) SNil SNil] in
  py_gives tn p [11; 11; 100; 5] (Returns None) /\ viper_gives tn p None [11; 5] None None.
Proof. split; [pe 20|ev 100]. Qed.
Print Assumptions C22_with_in_try_refuted.

(** A return through two with statements calls only the inner __exit__. *)
Theorem C22_nested_with_refuted :
  let p := [SWith 0 11 (L [SWith 1 12 (L [SReturn None])])] in
  py_gives tn p [11; 12; 12; 0; 11; 0] (Returns None) /\ viper_gives tn p None [11; 12; 12; 0] None None.
Proof. split; [pe 20|ev 100]. Qed.
Print Assumptions C22_nested_with_refuted.

(** A break out of a with body passes an arbitrary exception to __exit__. *)
Theorem C22_break_exit_argument_refuted :
  let p := [SWhile 2 9 (L [SWith 0 11 (L [SBreak])]) SNil] in
  py_gives tn p [11; 11; 0] (Returns None) /\ viper_gives tn p (Some 77) [11; 11; 77] None None.
Proof. split; [pe 20|ev 100]. Qed.
Print Assumptions C22_break_exit_argument_refuted.

(** An __exit__ that returns True does not suppress the exception. *)
Theorem C22_suppress_refuted :
  let p := [SWith 0 51 (L [SRaise 100]); SAct 1] in
  py_gives tw p [51; 51; 100; 1] (Returns None) /\ viper_gives tw p None [51; 51; 100] None (Some 100).
Proof. split; [pe 20|ev 100]. Qed.
Print Assumptions C22_suppress_refuted.
