(* Property C23: ghost code and its removal. *)

From Coq Require Import List Bool Arith ZArith.
From Verif Require Import GhostModel GhostSpec GhostProofs.
Import ListNotations.

(* C23: a regular function of an accepted program does the same in the extracted program: the
   same outputs, the same values in regular fields, the same regular result.  Missing: programs
   outside core (see the refuted statements below for what goes wrong there), code that does
   not terminate, and the language features GhostModel leaves out. *)
Theorem C23_preserved_partial : forall P Q f,
  checked P Q -> source P -> well_formed P -> core P ->
  f_ghost (p_fun P f) = false -> preserved P Q f.
Proof. intros P Q f A B C D; exact (c23_preserved P Q A C D B f). Qed.
Print Assumptions C23_preserved_partial.

(* C23: a ghost function changes no regular field and outputs nothing. *)
Theorem C23_ghost_effect_partial : forall P Q f n vs w w1 v,
  checked P Q -> source P -> well_formed P -> core P ->
  f_ghost (p_fun P f) = true -> run P n f vs w = Some (w1, v) -> same_world P w w1.
Proof. intros P Q f n vs w w1 v A B C D; exact (c23_ghost_effect P Q A C D B f n vs w w1 v). Qed.
Print Assumptions C23_ghost_effect_partial.

(* An accepted program that meets all hypotheses:
     def two(x, g10):  emit(x); return x + x, g10          (result: regular, ghost)
     @Ghost def note(c, v):  c.seen = v; return v
     def main(c, g10):
         x, g11 = two(3, g10)
         g11 += x
         if g11 < 4:
             g12 = note(c, g11)
         i = 0
         while i < x:
             emit(c.val); i = i + 1; g11 = g11 + i
         c.val = x
         g12 = two_plain(x)                                 (impure call, ghost target)
         return x *)
Definition example_main : func :=
  mk_fun false false [0; 10] RReg
    [SAssign (false, false) (TSeq false [1; 11]) (callf 3 [num 3; var 10]);
     SAug (false, false) 11 0 (var 1);
     SIf (false, false) (EOp None 1 [var 11; num 4])
       [assign_to 12 (callf 4 [var 0; var 11])] [];
     assign_to 2 (num 0);
     SWhile (false, false) (EOp None 1 [var 2; var 1])
       [do_expr (emit (EAttr None (var 0) 0));
        assign_to 2 (EOp None 0 [var 2; num 1]);
        assign_to 11 (EOp None 0 [var 11; var 2])];
     SAssign (false, false) (TAttr (var 0) 0) (var 1);
     assign_to 12 (emit (callf 2 [var 1]));
     ret (var 1)].
Definition example_two : func :=
  mk_fun false false [0; 10] RMixed
    [do_expr (emit (var 0)); ret (ETuple None (EOp None 0 [var 0; var 0]) (var 10))].
Definition example_note : func :=
  mk_fun true false [0; 1] RReg
    [SAssign (false, false) (TAttr (var 0) 1) (var 1); ret (var 1)].
Definition example_program : program := small_program example_main [example_two; example_note].
Definition example_world : world :=
  {| w_out := []; w_heap := fun r f => if Nat.eqb f 0 then Some (VInt 5) else None |}.

Ltac each_function f tac :=
  destruct f as [|f]; [tac|]; destruct f as [|f]; [tac|]; destruct f as [|f]; [tac|];
  destruct f as [|f]; [tac|]; destruct f as [|f]; [tac|]; destruct f as [|f]; [tac|]; tac.
Ltac solve_checked := split; [intros f; each_function f reflexivity | split; reflexivity].
Ltac solve_source := intros f; each_function f ltac:(first [reflexivity | exact Logic.I]).
Ltac wf_one :=
  cbn; split; [intros; first [discriminate | reflexivity]
              | first [split; [intros [K|K]; discriminate | intros; split; reflexivity]
                      | intros K; first [discriminate K | reflexivity]]].
Ltac solve_wf := intros f; each_function f wf_one.

Example C23_example_hypotheses :
  checked example_program (annotate example_program) /\ source example_program /\
  well_formed example_program /\ core example_program /\
  f_ghost (p_fun example_program 0) = false /\ f_ghost (p_fun example_program 4) = true.
Proof.
  split; [solve_checked|]; split; [solve_source|]; split; [solve_wf|].
  split; [intros f; each_function f ltac:(first [reflexivity | exact Logic.I])|].
  split; reflexivity.
Qed.

Definition result_of (r : option (world * val)) : option (list val * option val * val) :=
  match r with Some (w, v) => Some (w_out w, w_heap w 0 0, v) | None => None end.
Example C23_example_run :
  result_of (run example_program 10 0 [VRef 0; VInt 100] example_world) =
    Some ([VInt 3; VInt 5; VInt 5; VInt 5; VInt 5; VInt 5; VInt 5; VInt 6], Some (VInt 6), VInt 6) /\
  result_of (run (extract_program (annotate example_program)) 10 0 [VRef 0] example_world) =
    Some ([VInt 3; VInt 5; VInt 5; VInt 5; VInt 5; VInt 5; VInt 5; VInt 6], Some (VInt 6), VInt 6).
Proof. vm_compute; auto. Qed.

(* The statement without the restriction to core programs is false.  The remaining theorems
   give accepted programs whose extracted version behaves differently. *)
Ltac close_different H W R :=
  cbn in H;
  first [discriminate H | injection H as <- <-; vm_compute in W; discriminate W
        | injection H as <- <-; vm_compute in R; destruct R as [[g R]|[R _]]; discriminate R].
Ltac solve_different vs :=
  split; [solve_checked|]; split; [solve_source|]; split; [solve_wf|]; split; [reflexivity|];
  let H := fresh in
  intros H; specialize (H 5 vs example_world _ _ example_world eq_refl (same_refl _ _));
  destruct H as (m & w1 & v1 & H & (W & _) & R);
  do 6 (destruct m as [|m]; [close_different H W R|]); close_different H W R.

(* g10 = ident(emit(1)): the call of the pure function becomes ghost, and the call of the
   impure function in its argument disappears with it. *)
Definition p_converted : program :=
  small_program (mk_fun false false [] RReg [assign_to 10 (callf 2 [emit (num 1)])]) [].
Theorem C23_converted_call_refuted : accepted_but_different p_converted.
Proof. solve_different (@nil val). Qed.
Print Assumptions C23_converted_call_refuted.

(* The same for builtin functions: g10 = len(emit(1)). *)
Definition p_builtin : program :=
  small_program (mk_fun false false [] RReg [assign_to 10 (EBuiltin None 2 [emit (num 1)])]) [].
Theorem C23_builtin_argument_refuted : accepted_but_different p_builtin.
Proof. solve_different (@nil val). Qed.
Print Assumptions C23_builtin_argument_refuted.

(* g10 = 0; g10 += ident(1): the update of the ghost variable is kept. *)
Definition p_augmented : program :=
  small_program (mk_fun false false [] RReg
    [assign_to 10 (num 0); SAug (false, false) 10 0 (callf 2 [num 1])]) [].
Theorem C23_augmented_refuted : accepted_but_different p_augmented.
Proof. solve_different (@nil val). Qed.
Print Assumptions C23_augmented_refuted.

(* g10 = 1; match g10: case 1: emit(1) -- regular code under a ghost condition. *)
Definition p_match : program :=
  small_program (mk_fun false false [] RReg
    [assign_to 10 (num 1); SMatch (false, false) (var 10) [(1%Z, [do_expr (emit (num 1))])]]) [].
Theorem C23_match_refuted : accepted_but_different p_match.
Proof. solve_different (@nil val). Qed.
Print Assumptions C23_match_refuted.

(* def step() -> GInt: emit(1); return 2
   step() -- the statement is removed, because the result is ghost. *)
Definition step_fun : func := mk_fun false false [] RGhost [do_expr (emit (num 1)); ret (num 2)].
Definition p_ghost_result : program :=
  small_program (mk_fun false false [] RReg [do_expr (callf 3 [])]) [step_fun].
Theorem C23_ghost_result_refuted : accepted_but_different p_ghost_result.
Proof. solve_different (@nil val). Qed.
Print Assumptions C23_ghost_result_refuted.

(* if step(): pass -- removed as well. *)
Definition p_ghost_test : program :=
  small_program (mk_fun false false [] RReg
    [SIf (false, false) (callf 3 []) [SPass (false, false)] []]) [step_fun].
Theorem C23_ghost_test_refuted : accepted_but_different p_ghost_test.
Proof. solve_different (@nil val). Qed.
Print Assumptions C23_ghost_test_refuted.

(* def main() -> GInt: return 1 + emit(1) -- the returned expression is removed. *)
Definition p_returned : program :=
  small_program (mk_fun false false [] RGhost [ret (EOp None 0 [num 1; emit (num 1)])]) [].
Theorem C23_returned_effect_refuted : accepted_but_different p_returned.
Proof. solve_different (@nil val). Qed.
Print Assumptions C23_returned_effect_refuted.

(* def main() -> Tuple[int, GInt]: return 5, emit(1) -- the extracted function returns the pair
   although its callers expect the first part. *)
Definition p_mixed : program :=
  small_program (mk_fun false false [] RMixed [ret (ETuple None (num 5) (emit (num 1)))]) [].
Theorem C23_mixed_return_refuted : accepted_but_different p_mixed.
Proof. solve_different (@nil val). Qed.
Print Assumptions C23_mixed_return_refuted.

(* [x, g10] = pair() -- becomes [x] = pair(), where pair() returns a number. *)
Definition pair_fun : func := mk_fun false false [] RMixed [ret (ETuple None (num 5) (num 6))].
Definition p_list_target : program :=
  small_program (mk_fun false false [] RReg
    [SAssign (false, false) (TSeq true [0; 10]) (callf 3 []); ret (var 0)]) [pair_fun].
Theorem C23_list_target_refuted : accepted_but_different p_list_target.
Proof. solve_different (@nil val). Qed.
Print Assumptions C23_list_target_refuted.

(* def first(x, g10): return x
   g10 = 0; return ident(first(1, g10)) -- the ghost argument is not removed. *)
Definition first_fun : func := mk_fun false true [0; 10] RReg [ret (var 0)].
Definition p_nested : program :=
  small_program (mk_fun false false [] RReg
    [assign_to 10 (num 0); ret (callf 2 [callf 3 [num 1; var 10]])]) [first_fun].
Theorem C23_nested_argument_refuted : accepted_but_different p_nested.
Proof. solve_different (@nil val). Qed.
Print Assumptions C23_nested_argument_refuted.

(* def main(gc): x = gc.val; return x -- the regular field of a ghost object is regular. *)
Definition p_receiver : program :=
  small_program (mk_fun false false [10] RReg [assign_to 0 (EAttr None (var 10) 0); ret (var 0)]) [].
Theorem C23_receiver_refuted : accepted_but_different p_receiver.
Proof. solve_different [VRef 0]. Qed.
Print Assumptions C23_receiver_refuted.

(* def main(gc): gc.val = 5 -- assigned through a ghost reference. *)
Definition p_receiver_write : program :=
  small_program (mk_fun false false [10] RReg [SAssign (false, false) (TAttr (var 10) 0) (num 5)]) [].
Theorem C23_receiver_write_refuted : accepted_but_different p_receiver_write.
Proof. solve_different [VRef 0]. Qed.
Print Assumptions C23_receiver_write_refuted.
