(** C20: the Viper expression generated for a pure function has the value Python
    returns. *)
From Coq Require Import List Bool Arith ZArith.
From Verif Require Import ExprSpec MatchSpec PureSpec PureModel PureProofs.
Import ListNotations.

(** Soundness: whenever all checks of the generated expression succeed, its value
    is the value the Python function returns (in particular Python does return,
    raises nothing, reads no unbound variable and fails no assertion).  For all
    bodies of assignments, augmented assignments, [if], [match], assertions and
    returns, nested arbitrarily, that are accepted by the translation. *)
Theorem C20_pure_sound : forall W params args body b v,
  no_stale_reads [] body = true -> pats_oks (w_classes W) body -> params_ok params [] body = true ->
  tr_body params body = Some (inr (Some b)) ->
  viper_call W args b = Some v ->
  py_call W params args body = Some v.
Proof. exact c20_pure_sound. Qed.
Print Assumptions C20_pure_sound.

(** Exactness: if augmented assignments are applied to ints and bools only (on
    everything else they raise), both sides agree completely; a path that raises
    or reaches the end of the body without [return] is one on which a check of
    the generated expression fails. *)
Theorem C20_pure_exact : forall W params args body b,
  (forall o v w, aug_other W o v w = None) ->
  no_stale_reads [] body = true -> pats_oks (w_classes W) body -> params_ok params [] body = true ->
  tr_body params body = Some (inr (Some b)) ->
  viper_call W args b = py_call W params args body.
Proof. exact body_ok. Qed.
Print Assumptions C20_pure_exact.

(** A concrete function:
<<
    def f(p0, p1):
        x2 = 1
        if p0:
            x2 += p1
            if p1 < x2: return x2      (op2 0 is <)
            x3 = 5
        else:
            match p1:
                case 7: return 70
                case x4 if x4 < 0: return x4
                case x5: x3 = x5
        assert x3
        return x3
>> *)
Definition demo_world : world :=
  {| op1 := fun _ v => Some v;
     op2 := fun f v w => match v, w with
                         | VInt a, VInt b => if Nat.eqb f 0 then Some (VBool (Z.ltb a b)) else Some (VInt (a + b))
                         | _, _ => None end;
     w_classes := {| isinst := fun _ _ => false;
                     eqv := fun v w => match v, w with VInt a, VInt b => Z.eqb a b | _, _ => false end |};
     w_heap := fun _ _ => VNone;
     aug_other := fun _ _ _ => None |}.

Definition one (c : pstmt) : pstmts := SCons c SNil.
Definition demo_body : pstmts :=
  SCons (SAssign 2 (XVal (VInt 1)))
  (SCons (SIf (XVar 0)
     (SCons (SAug 2 OAdd (XVar 1))
     (SCons (SIf (XApp2 0 (XVar 1) (XVar 2)) (one (SReturn (XVar 2))) SNil)
     (one (SAssign 3 (XVal (VInt 5))))))
     (one (SMatch (XVar 1)
        (KCons (PVal (VInt 7)) None (one (SReturn (XVal (VInt 70))))
        (KCons (PCap 4) (Some (XApp2 0 (XVar 4) (XVal (VInt 0)))) (one (SReturn (XVar 4)))
        (KCons (PCap 5) None (one (SAssign 3 (XVar 5))) KNil))))))
  (SCons (SAssert (XVar 3))
  (one (SReturn (XVar 3))))).

Definition demo_args (c : bool) (n : Z) : nat -> val :=
  fun x => match x with 0 => VBool c | _ => VInt n end.

Example C20_demo_ok :
  no_stale_reads [] demo_body = true /\ pats_oks (w_classes demo_world) demo_body /\
  params_ok [0; 1] [] demo_body = true /\
  exists b, tr_body [0; 1] demo_body = Some (inr (Some b)) /\
    viper_call demo_world (demo_args true 4) b = Some (VInt 5) /\
    viper_call demo_world (demo_args false 7) b = Some (VInt 70) /\
    viper_call demo_world (demo_args false (-3)) b = Some (VInt (-3)) /\
    viper_call demo_world (demo_args false 9) b = Some (VInt 9) /\
    viper_call demo_world (demo_args false 0) b = None.
Proof.
  split; [reflexivity|]. split; [repeat constructor; simpl; auto; intros []|].
  split; [reflexivity|]. eexists. split; [reflexivity|]. repeat split; vm_compute; reflexivity.
Qed.

(** A parameter that is assigned in only one branch is lost in the other one:
    [def f(p0, c): if c: p0 = 5; return p0] gives [None] if [c] is false. *)
Theorem C20_param_in_branch_refuted : exists W params args body b v,
  no_stale_reads [] body = true /\ pats_oks (w_classes W) body /\
  tr_body params body = Some (inr (Some b)) /\
  viper_call W args b = Some v /\ py_call W params args body <> Some v.
Proof.
  exists demo_world, [0; 1], (demo_args false 3),
    (SCons (SIf (XVar 0) (one (SAssign 1 (XVal (VInt 5)))) SNil) (one (SReturn (XVar 1)))).
  eexists. exists VNone. split; [reflexivity|]. split; [simpl; auto|].
  split; [reflexivity|]. split; [reflexivity|]. vm_compute. discriminate.
Qed.
Print Assumptions C20_param_in_branch_refuted.

(** A binding made by a case whose guard failed is lost:
    [x2 = 7; match p1: case x2 if x2 < 0: return 0; return x2]
    returns 7 instead of [p1]. *)
Theorem C20_failed_guard_refuted : exists W params args body b v,
  pats_oks (w_classes W) body /\ params_ok params [] body = true /\
  tr_body params body = Some (inr (Some b)) /\
  viper_call W args b = Some v /\ py_call W params args body <> Some v.
Proof.
  exists demo_world, [0; 1], (demo_args false 3),
    (SCons (SAssign 2 (XVal (VInt 7)))
     (SCons (SMatch (XVar 1)
        (KCons (PCap 2) (Some (XApp2 0 (XVar 2) (XVal (VInt 0)))) (one (SReturn (XVal (VInt 0)))) KNil))
     (one (SReturn (XVar 2))))).
  eexists. exists (VInt 7). split; [repeat constructor; simpl; auto; intros []|].
  split; [reflexivity|]. split; [reflexivity|]. split; [reflexivity|]. vm_compute. discriminate.
Qed.
Print Assumptions C20_failed_guard_refuted.

(** Captures below an or-pattern are not bound:
    [x2 = 7; match p1: case (0 as x2) | (3 as x2): return x2] returns 7. *)
Theorem C20_or_capture_refuted : exists W params args body b v,
  no_stale_reads [] body = true /\ params_ok params [] body = true /\
  tr_body params body = Some (inr (Some b)) /\
  viper_call W args b = Some v /\ py_call W params args body <> Some v.
Proof.
  exists demo_world, [0; 1], (demo_args false 3),
    (SCons (SAssign 2 (XVal (VInt 7)))
     (SCons (SMatch (XVar 1)
        (KCons (POr (PAs (PVal (VInt 0)) 2) [PAs (PVal (VInt 3)) 2]) None (one (SReturn (XVar 2))) KNil))
     (one (SReturn (XVal (VInt 0)))))).
  eexists. exists (VInt 7). split; [reflexivity|].
  split; [reflexivity|]. split; [reflexivity|]. split; [reflexivity|]. vm_compute. discriminate.
Qed.
Print Assumptions C20_or_capture_refuted.

(** A body without statements (contract and docstring only) is accepted, but the
    generated function has no body: its postcondition is never checked. *)
Theorem C20_empty_body_refuted : exists W params args body,
  tr_body params body = Some (inr None) /\ py_call W params args body = None.
Proof. exists demo_world, [0], (demo_args true 0), SNil. split; reflexivity. Qed.
Print Assumptions C20_empty_body_refuted.

(** It is the only accepted body without generated code. *)
Theorem C20_body_generated : forall params body,
  tr_body params body = Some (inr None) -> body = SNil.
Proof. exact body_generated. Qed.
Print Assumptions C20_body_generated.

(** A statement that cannot be reached because an unconditional [return] precedes
    it is rejected, and so is a body that ends in an assignment or assertion. *)
Theorem C20_after_return_rejected : forall params e ss b,
  tr_body params (SCons (SReturn e) ss) = Some (inr (Some b)) -> ss = SNil.
Proof. exact after_return_rejected. Qed.
Print Assumptions C20_after_return_rejected.
