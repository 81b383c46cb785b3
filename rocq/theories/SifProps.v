(** Properties C69 and C70: the probabilistic information-flow mode. *)
From Coq Require Import List ZArith Bool Arith Lia.
From Verif Require Import SifSpec SifModel SifProofs SifSimProofs SifStmtProofs SifForProofs.
Import ListNotations.

Notation go t := (Some (Go, t)).

(** Variable 0 is the secret in all examples. *)
Definition secret (v : value) : store := upd (fun _ => VInt 0) 0 v.
Definition quiet : world := fun _ _ _ => VInt 0.

(** ** C69: accepted programs decide nothing on secrets *)

(** Whatever the two environments and initial stores are, if no check fails in the
    pair of runs then both runs make the same tests, calls, selections of methods
    and raise the same exceptions, in the same order, and end in the same way.
    In particular one is cut off in a loop exactly if the other is. *)
Theorem C69_prob_partial : forall n st w1 w2 s1 s2, good false st ->
  accepted n st w1 w2 s1 s2 -> same_decisions n st w1 w2 s1 s2.
Proof. exact accepted_same. Qed.
Print Assumptions C69_prob_partial.

(** try:
      for x in [1, 2]: (list in variable 1)
        if (x and f(x)): raise E(secret)     else: secret = g(secret)
        while y: Invariant(Low(bool(y)));  y = 0
    except E: return secret
    finally: z = [2 * x for x in list] *)
Definition example : stmt :=
  SFinally
    (STry
      (SFor 2 (EVar 1)
        (SSeq
          (SIf (EBool true (EVar 2) (ECons (ECall 7 (ECons (EVar 2) ENil)) ENil))
             (SRaise (EOp (fun v _ => VObj 5 (match v with VInt z => Z.to_nat z | _ => 0 end)) (EVar 0) (EInt 0)))
             (SAssign 0 (ECall 8 (ECons (EVar 0) ENil))))
          (SWhile (EVar 3) [EVar 3] (SAssign 3 (EInt 0)))))
      (fun c => c =? 5)
      (SReturn (EVar 0)))
    (SAssign 4 (EComp (fun z => (2 * z)%Z) (EVar 1))).

Definition ex_store (z : Z) : store := upd (upd (secret (VInt z)) 1 (VSeq [1; 2]%Z)) 3 (VInt 1).
Definition ex_world (z : Z) : world := fun _ f args =>
  match f, args with 7, VInt x :: _ => VInt (x - 1) | _, _ => VInt z end.

Example C69_prob_example : good false example /\
  accepted 5 example (ex_world 3) (ex_world 4) (ex_store 10) (ex_store 20) /\
  same_decisions 5 example (ex_world 3) (ex_world 4) (ex_store 10) (ex_store 20) /\
  trace (run 5 (ex_world 3) example (ex_store 10) 0) =
    [EvIf true; EvIf true; EvCall 7; EvIf false; EvCall 8; EvIf true; EvIf false;
     EvIf true; EvIf true; EvCall 7; EvIf true; EvExc 5; EvIf true;
     EvIf true; EvIf true; EvIf false] /\
  ending (run 5 (ex_world 3) example (ex_store 10) 0) <>
  ending (run 5 (ex_world 4) example (ex_store 20) 0).
Proof.
  assert (G : good false example) by (cbn; tauto).
  assert (A : accepted 5 example (ex_world 3) (ex_world 4) (ex_store 10) (ex_store 20)).
  { eexists. split; [reflexivity|]. vm_compute. discriminate. }
  split; [exact G|]. split; [exact A|]. split; [exact (C69_prob_partial _ _ _ _ _ _ G A)|].
  split; [reflexivity|]. vm_compute. discriminate.
Qed.

(** A test of a secret is found. *)
Example C69_prob_found : ~ accepted 1 (SIf (EVar 0) SBreak SSkip) quiet quiet (secret (VInt 0)) (secret (VInt 1)).
Proof. intros (t & E & H). injection E as <-. apply H. reflexivity. Qed.

(** The general claim fails if there are a program and two initial stores for which
    no check fails at any length of the loops and different decisions are made. *)
Definition leaks (st : stmt) : Prop :=
  exists w s1 s2, (forall n, accepted n st w w s1 s2) /\
                  exists n, ~ same_decisions n st w w s1 s2.

(** b = True; while b: b = secret; secret = False
    The condition is checked before the first iteration only. *)
Definition leak_while : stmt :=
  SSeq (SAssign 1 (EInt 1))
       (SWhile (EVar 1) [] (SSeq (SAssign 1 (EVar 0)) (SAssign 0 (EInt 0)))).

Theorem C69_while_refuted : leaks leak_while.
Proof.
  exists quiet, (secret (VInt 0)), (secret (VInt 1)). split.
  - intros n. eexists. split; [reflexivity|].
    destruct n as [|[|[|n]]]; try (vm_compute; discriminate).
    cbn [prod]. cbn. 
    match goal with |- context [ploop ?c ?i ?b n (None, None)] =>
      rewrite (ploop_inert c i b n None None) by (try reflexivity; exact Logic.I) end.
    discriminate.
  - exists 3. intros (T & _). vm_compute in T. discriminate.
Qed.
Print Assumptions C69_while_refuted.

(** for x in secret: continue
    The statement jumps over __next__ and the check at the end of the body. *)
Definition leak_continue : stmt := SFor 1 (EVar 0) SContinue.

Theorem C69_continue_refuted : leaks leak_continue.
Proof.
  exists quiet, (secret (VSeq [1]%Z)), (secret (VSeq [1; 2]%Z)). split.
  - intros n. apply continue_accepted; reflexivity.
  - exists 3. intros (T & _). vm_compute in T. discriminate.
Qed.
Print Assumptions C69_continue_refuted.

(** match secret: case 1: f() *)
Definition leak_match : stmt :=
  SMatch (EVar 0) (CCons (fun v => match v with VInt 1 => true | _ => false end)
                         (SExpr (ECall 7 ENil)) CNil).

Theorem C69_match_refuted : leaks leak_match.
Proof.
  exists quiet, (secret (VInt 0)), (secret (VInt 1)). split.
  - intros n. eexists. split; [reflexivity|]. discriminate.
  - exists 0. intros (T & _). vm_compute in T. discriminate.
Qed.
Print Assumptions C69_match_refuted.

(** y = f(secret) for a pure f whose body is: if x: return 1 else: return 2 *)
Definition leak_pure : stmt :=
  SAssign 1 (EPure (PIf truth (PRet (fun _ => VInt 1)) (PRet (fun _ => VInt 2))) (EVar 0)).

Theorem C69_pure_refuted : leaks leak_pure.
Proof.
  exists quiet, (secret (VInt 0)), (secret (VInt 1)). split.
  - intros n. eexists. split; [reflexivity|]. discriminate.
  - exists 0. intros (T & _). vm_compute in T. discriminate.
Qed.
Print Assumptions C69_pure_refuted.

(** 0 < secret < f(): Python calls f only if the secret is positive. *)
Definition ltv (a b : value) : bool :=
  match a, b with VInt x, VInt y => (x <? y)%Z | _, _ => false end.
Definition leak_chain : stmt :=
  SAssign 1 (ECmp ltv ltv (EInt 0) (EVar 0) (ECall 7 ENil)).

Theorem C69_chain_refuted : leaks leak_chain.
Proof.
  exists quiet, (secret (VInt 0)), (secret (VInt 1)). split.
  - intros n. eexists. split; [reflexivity|]. discriminate.
  - exists 0. intros (T & _). vm_compute in T. discriminate.
Qed.
Print Assumptions C69_chain_refuted.

(** secret + 1, where the class of the secret object implements __add__ *)
Definition leak_operator : stmt := SAssign 1 (EDunder 7 (EVar 0) (EInt 1)).

Theorem C69_operator_refuted : leaks leak_operator.
Proof.
  exists quiet, (secret (VObj 5 0)), (secret (VObj 6 0)). split.
  - intros n. eexists. split; [reflexivity|]. discriminate.
  - exists 0. intros (T & _). vm_compute in T. discriminate.
Qed.
Print Assumptions C69_operator_refuted.

(** [x for x in secret if x > 0] *)
Definition leak_filter : stmt := SAssign 1 (EFilter (fun z => (0 <? z)%Z) (fun z => z) (EVar 0)).

Theorem C69_filter_refuted : leaks leak_filter.
Proof.
  exists quiet, (secret (VSeq [1]%Z)), (secret (VSeq [1; 2]%Z)). split.
  - intros n. eexists. split; [reflexivity|]. discriminate.
  - exists 0. intros (T & _). vm_compute in T. discriminate.
Qed.
Print Assumptions C69_filter_refuted.

(** ** C70: no false alarms *)

(** If two runs make the same decisions, no check fails. *)
Theorem C70_accepts_partial : forall n st w1 w2 s1 s2, good true st -> trs st 0 <> None ->
  trace (run n w1 st s1 0) = trace (run n w2 st s2 0) -> accepted n st w1 w2 s1 s2.
Proof. exact same_accepted. Qed.
Print Assumptions C70_accepts_partial.

(** for x in list: if x: secret = f(secret)  else: raise E *)
Definition example2 : stmt :=
  SFor 2 (EVar 1) (SIf (EVar 2) (SAssign 0 (ECall 8 (ECons (EVar 0) ENil)))
                       (SRaise (EVar 3))).
Definition ex2_store (z : Z) : store := upd (upd (secret (VInt z)) 1 (VSeq [1; 0]%Z)) 3 (VObj 5 (Z.to_nat z)).

Example C70_accepts_example : good true example2 /\ trs example2 0 <> None /\
  accepted 5 example2 (ex_world 3) (ex_world 4) (ex2_store 10) (ex2_store 20) /\
  trace (run 5 (ex_world 3) example2 (ex2_store 10) 0) =
    [EvIf true; EvIf true; EvCall 8; EvIf true; EvIf false; EvExc 5].
Proof.
  assert (G : good true example2) by (cbn; tauto).
  assert (H : trs example2 0 <> None) by discriminate.
  split; [exact G|]. split; [exact H|]. split; [|reflexivity].
  apply C70_accepts_partial; [exact G|exact H|reflexivity].
Qed.

(** y = 1 and secret: nothing is decided on the last operand, but it is checked. *)
Definition alarm : stmt := SAssign 1 (EBool true (EInt 1) (ECons (EVar 0) ENil)).

Theorem C70_last_operand_refuted :
  (forall n w1 w2 s1 s2, trace (run n w1 alarm s1 0) = trace (run n w2 alarm s2 0)) /\
  (forall n, ~ accepted n alarm quiet quiet (secret (VInt 0)) (secret (VInt 1))).
Proof.
  split; [reflexivity|]. intros n (t & E & H). injection E as <-. apply H. reflexivity.
Qed.
Print Assumptions C70_last_operand_refuted.

(** while x and y: ... with public x and y is rejected in this mode, since the checks
    of the operands are statements. *)
Definition alarm_while : stmt :=
  SWhile (EBool true (EVar 1) (ECons (EVar 2) ENil)) [] (SAssign 1 (EInt 0)).

Theorem C70_while_refuted : forall n w1 w2 s1 s2, ~ accepted n alarm_while w1 w2 s1 s2.
Proof. intros n w1 w2 s1 s2 (t & E & _). discriminate. Qed.
Print Assumptions C70_while_refuted.

Example C70_while_public : forall w s,
  trace (run 5 w alarm_while (upd (upd s 1 (VInt 1)) 2 (VInt 1)) 0) =
  [EvIf true; EvIf true; EvIf false; EvIf false].
Proof. reflexivity. Qed.
