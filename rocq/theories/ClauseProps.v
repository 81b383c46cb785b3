(** C72: contracts consist of exactly the clauses that are written, each where it may
    stand, and everything else is verified as code. *)
From Coq Require Import List Arith Sorted.
From Verif Require Import ClauseSpec ClauseModel ClauseProofs.
Import ListNotations.

(** Every clause of an accepted function, wherever it is written, is part of its contract,
    once and in the order of the text, and nothing else is. *)
Theorem C72_nothing_lost :
  forall f c b, verify f = Some (c, b) -> c = stated f.
Proof. exact nothing_lost. Qed.
Print Assumptions C72_nothing_lost.

(** Every statement of an accepted function that is not a clause is verified, in order, and
    every loop with exactly the invariants that are written in it: if no method that is
    named like a clause is called. *)
Theorem C72_nothing_skipped_partial :
  forall f c x, Forall no_calls (body f) -> verify f = Some (c, Some x) -> x = meaning (body f).
Proof. exact nothing_skipped. Qed.
Print Assumptions C72_nothing_skipped_partial.

(** Clauses of an accepted function stand in the documented places, if loops do not start
    or end with clauses of the function. *)
Theorem C72_in_place_partial :
  forall f c x, Forall no_calls (body f) -> Forall tidy_loops (body f) ->
    verify f = Some (c, Some x) -> well_placed (body f).
Proof. exact in_place. Qed.
Print Assumptions C72_in_place_partial.

(** Functions whose clauses stand in the documented places are accepted, with that contract
    and that body. *)
Theorem C72_accepts_partial :
  forall f, well_placed (body f) -> Forall no_calls (body f) ->
    (inline f = true -> forall k, k <> KInv -> says k (body f) = []) ->
    (pure f = false -> says KDec (body f) = []) ->
    (pure f = true -> says KExs (body f) = [] /\ Forall no_loops (body f)) ->
    verify f = Some (stated f, if contract_only f then None else Some (meaning (body f))).
Proof. exact accepts. Qed.
Print Assumptions C72_accepts_partial.

Definition method (b : list stmt) : func := {| pure := false; inline := false; contract_only := false; body := b |}.

(** o.Requires(e); x = 1: the call of a method called Requires is not verified. *)
Theorem C72_nothing_skipped_refuted :
  ~ (forall f c x, verify f = Some (c, Some x) -> x = meaning (body f)).
Proof. intros H. discriminate (H (method [Call KReq 0; Plain 1 []]) _ _ eq_refl). Qed.
Print Assumptions C72_nothing_skipped_refuted.
(** The same at the end of a loop, with a method called Ensures. *)
Theorem C72_loop_end_skipped_refuted :
  verify (method [Loop 0 [Plain 1 []; Call KEns 2] []]) =
    Some (stated (method []), Some [ALoop 0 [] [ADo 1] []]) /\
  meaning [Loop 0 [Plain 1 []; Call KEns 2] []] = [ALoop 0 [] [ADo 1; ACall KEns 2] []].
Proof. split; reflexivity. Qed.

Lemma not_head k i l main (H : clean (Loop 0 (Plain 9 [] :: l) main)) : In (Clause k i []) l -> False.
Proof.
  intros I. remember (Loop 0 (Plain 9 [] :: l) main) as s0 eqn:Q.
  destruct H as [| | | | |j head m o IO OL CM CO]; try discriminate. injection Q as _ E _. destruct head as [|s head].
  - cbn in E. subst m. inversion CM as [|? ? _ CM']; subst. rewrite Forall_forall in CM'. specialize (CM' _ I). inversion CM'.
  - injection E as -> _. destruct IO as (_ & HD). inversion HD as [|? ? P _]; subst.
    destruct P as [P | [P | [(cs & P) | (k' & i' & P)]]]; discriminate.
Qed.
(** x = 0; while c: x += 1; Ensures(x > 0): the clause in the loop is a postcondition of the
    function. *)
Theorem C72_in_place_refuted :
  ~ (forall f c x, Forall no_calls (body f) -> verify f = Some (c, Some x) -> well_placed (body f)).
Proof.
  intros H. destruct (H (method [Loop 0 [Plain 9 []; Clause KEns 2 []] []])
    {| requires := []; ensures := [2]; exsures := []; decreases := [] |} [ALoop 0 [] [ADo 9] []]) as (head & main & tail & E & IO & OF & CM & TL).
  - cbn. repeat constructor.
  - reflexivity.
  - destruct head as [|s head].
    + destruct main as [|s main]; cbn in E.
      * destruct tail as [|s tail]; [discriminate|]. injection E as <- _. inversion TL as [|? ? (i & P) _]; discriminate.
      * injection E as <- _. inversion CM as [|? ? C _]; subst. exact (not_head KEns 2 _ _ C (or_introl eq_refl)).
    + injection E as <- _. destruct IO as (_ & HD). inversion HD as [|? ? P _]; subst.
      destruct P as [P | [P | [(cs & P) | (k' & i' & P)]]]; discriminate.
Qed.
Print Assumptions C72_in_place_refuted.
(** A precondition at the beginning of a loop. *)
Theorem C72_loop_requires_refuted :
  verify (method [Plain 0 []; Loop 1 [Clause KInv 2 []; Clause KReq 3 []; Plain 4 []] []]) =
  Some ({| requires := [3]; ensures := []; exsures := []; decreases := [] |},
        Some [ADo 0; ALoop 1 [2] [ADo 4] []]).
Proof. reflexivity. Qed.
(** In contract-only functions clauses may stand anywhere: if b: Requires(e). *)
Theorem C72_contract_only_refuted :
  verify {| pure := false; inline := false; contract_only := true; body := [Block 0 [[Clause KReq 1 []]; []]] |} =
  Some ({| requires := [1]; ensures := []; exsures := []; decreases := [] |}, None).
Proof. reflexivity. Qed.

(** A function with all kinds of clauses, a loop and a conditional. *)
Definition ex : list stmt :=
  [Doc; Exists [(KReq, 1); (KEns, 2)]; Clause KReq 3 []; Clause KReq 4 []; Clause KEns 5 []; Clause KExs 6 [];
   Plain 7 []; Loop 8 [Doc; Clause KInv 9 []; Clause KInv 10 []; Plain 11 []; Block 12 [[Plain 13 []]; []]] [Plain 14 []];
   Clause KEns 15 []].
Example C72_ex : verify (method ex) =
  Some ({| requires := [1; 3; 4]; ensures := [2; 5; 15]; exsures := [6]; decreases := [] |},
        Some [ADo 7; ALoop 8 [9; 10] [ADo 11; ABlock 12 [[ADo 13]; []]] [ADo 14]]).
Proof. vm_compute. reflexivity. Qed.
Example C72_ex_conditions : Forall no_calls ex /\ Forall tidy_loops ex /\ well_placed ex.
Proof.
  assert (A : Forall no_calls ex) by (apply all_Forall; cbn; tauto).
  assert (B : Forall tidy_loops ex).
  { apply all_Forall. cbn. repeat match goal with |- _ /\ _ => split | |- True => exact Logic.I | |- Forall _ [] => constructor | |- Forall _ (_ :: _) => constructor; [first [exact Logic.I | reflexivity]|] end. }
  split; [exact A|]. split; [exact B|]. exact (in_place (method ex) _ _ A B C72_ex).
Qed.
(** Misplaced clauses are rejected: in a conditional, in an expression, after the body, in
    the wrong order, in an inlined method, an invariant outside of loops. *)
Example C72_rejected :
  verify (method [Block 0 [[Clause KReq 1 []]; []]]) = None /\
  verify (method [Plain 0 [(KEns, 1)]]) = None /\
  verify (method [Clause KReq 0 [(KReq, 1)]]) = None /\
  verify (method [Plain 0 []; Clause KReq 1 []]) = None /\
  verify (method [Clause KEns 0 []; Clause KReq 1 []; Plain 2 []]) = None /\
  verify {| pure := false; inline := true; contract_only := false; body := [Clause KReq 0 []] |} = None /\
  verify (method [Clause KInv 0 []]) = None /\
  verify (method [Loop 0 [Plain 1 []] [Clause KInv 2 []]]) = None.
Proof. repeat apply conj; vm_compute; reflexivity. Qed.
