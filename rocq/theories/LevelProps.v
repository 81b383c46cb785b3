(** C60: levels of locks are consistent. *)
From Coq Require Import List Bool Arith QArith Lqa Lia.
From Verif Require Import LevelModel LevelSpec LevelProofs.
Import ListNotations.
Local Open Scope nat_scope.

(** ** C60: if every object gets its level before the level is used, and gets it once, then
    there are levels of which all that is assumed is true. *)
Theorem C60_levels_partial :
  forall st : state, orderly start st -> consistent (facts st).
Proof. intros st O. exact (proj2 (orderly_consistent st O)). Qed.
Print Assumptions C60_levels_partial.

(** In particular if no lock class has a constructor of its own. *)
Theorem C60_direct :
  forall (tr : list label) (st : state),
  steps start tr st -> (forall k, ~ In (Super k) tr) -> consistent (facts st).
Proof. exact direct_consistent. Qed.
Print Assumptions C60_direct.

Lemma steps_fwd st1 l st2 tr st3 : step st1 l st2 -> steps st2 tr st3 -> steps st1 (l :: tr) st3.
Proof.
  intros S R. induction R as [st|st2 tr st3 l' st4 R IH S'].
  - exact (steps_snoc st1 [] st1 l st (steps_nil st1) S).
  - exact (steps_snoc st1 (l :: tr) st3 l' st4 (IH S) S').
Qed.

(** Two locks, the second one above the first; a third one between them; the first one is
    acquired; a thread is started that may wait for the second. *)
Example C60_direct_ex : exists st,
  steps start [Direct; Direct; Direct; Other; Other] st /\
  In (Lt (Level 0) (Level 2)) (facts st) /\ In (Lt (Level 2) (Level 1)) (facts st) /\
  In (Le (Level 0) (Wait 1)) (facts st) /\ In (Lt (Wait 2) (Level 1)) (facts st).
Proof.
  eexists. split.
  - eapply steps_fwd; [apply (l_direct 0 None None); cbn; try lia; constructor|].
    eapply steps_fwd; [apply (l_direct 0 (Some 0) None); cbn; try lia; constructor|].
    eapply steps_fwd; [apply (l_direct 0 (Some 0) (Some 1)); cbn [start facts n_locks n_waits exists_in]; try lia|].
    { cbn [demanded]. constructor; [|constructor]. intros v V. cbn in V. inversion V; subst. assumption. }
    eapply steps_fwd; [apply (l_acquire [0] [0]); cbn; repeat constructor|].
    eapply steps_fwd; [apply (l_thread [1]); cbn; repeat constructor|].
    constructor.
  - cbn. tauto.
Qed.

(** A lock whose class has a constructor that calls super().__init__. *)
Example C60_levels_ex : exists st,
  orderly start st /\ In (Lt (Level 0) (Level 1)) (facts st).
Proof.
  eexists. split.
  - eapply o_snoc; [eapply o_snoc; [eapply o_snoc; [apply o_nil| |]| |]| |].
    + apply (l_direct 0 None None); cbn; try lia; constructor.
    + intros k X. discriminate X.
    + apply l_create.
    + intros k X. discriminate X.
    + apply (l_super 0 1 (Some 0) None); cbn; try lia; constructor.
    + intros k X. inversion X; subst. split.
      * intros f [<-|[]] [M|M]; discriminate M.
      * cbn. intros [M|[M|[]]]; discriminate M.
  - cbn. tauto.
Qed.

(** A constructor that passes the new object as its own bound: super().__init__(o, self). *)
Theorem C60_self_refuted :
  ~ (forall (tr : list label) (st : state), steps start tr st -> consistent (facts st)).
Proof.
  intros H. destruct (H [Other; Super 0] (St [Lt (Level 0) (Level 0)] 1 1)) as (v & V).
  - eapply steps_fwd; [apply l_create|]. eapply steps_fwd; [|apply steps_nil].
    apply (l_super 0 0 (Some 0) None (St [] 1 1)); cbn; try lia; constructor.
  - inversion V; subst. cbn [holds] in *. lra.
Qed.
Print Assumptions C60_self_refuted.

(** A constructor that calls super().__init__ twice: first above lock 0, then below it.  No
    object is its own bound. *)
Theorem C60_twice_refuted :
  ~ (forall (tr : list label) (st : state), steps start tr st ->
       (forall k, ~ In (Lt (Level k) (Level k)) (facts st)) -> consistent (facts st)).
Proof.
  intros H.
  destruct (H [Direct; Direct; Other; Super 2; Super 2]
    (St [Lt (Level 0) (Level 2); Lt (Level 2) (Level 1); Lt (Level 1) (Level 2); Lt (Level 0) (Level 1); Lt (Wait 0) (Level 0)] 3 1))
    as (v & V).
  - eapply steps_fwd; [apply (l_direct 0 None None); cbn; try lia; constructor|].
    eapply steps_fwd; [apply (l_direct 0 (Some 0) None); cbn; try lia; constructor|].
    eapply steps_fwd; [apply l_create|].
    eapply steps_fwd; [apply (l_super 0 2 (Some 1) None); cbn; try lia; constructor|].
    eapply steps_fwd; [|apply steps_nil].
    apply (l_super 0 2 (Some 0) (Some 1) (St [Lt (Level 1) (Level 2); Lt (Level 0) (Level 1); Lt (Wait 0) (Level 0)] 3 1));
      cbn [facts n_locks n_waits exists_in]; try lia.
    constructor; [|constructor]. intros v V. inversion V; subst. match goal with X : Forall _ (_ :: _) |- _ => inversion X; subst end. assumption.
  - intros k X. cbn in X. repeat destruct X as [X|X]; inversion X; subst; discriminate.
  - cbn [facts] in V. rewrite !Forall_cons_iff in V. cbn [holds] in V. destruct V as (_ & V2 & V3 & _). lra.
Qed.
Print Assumptions C60_twice_refuted.

(** A constructor that uses the new object as the lower bound of another lock before its own
    level is chosen above that lock.  Every object gets its level once. *)
Theorem C60_early_refuted :
  ~ (forall (tr : list label) (st : state), steps start tr st ->
       (forall k, ~ In (Lt (Level k) (Level k)) (facts st)) ->
       NoDup (filter (fun l => match l with Super _ => true | _ => false end) tr) -> consistent (facts st)).
Proof.
  intros H.
  destruct (H [Other; Direct; Super 0] (St [Lt (Level 1) (Level 0); Lt (Level 0) (Level 1)] 2 1)) as (v & V).
  - eapply steps_fwd; [apply l_create|].
    eapply steps_fwd; [apply (l_direct 0 (Some 0) None); cbn; try lia; constructor|].
    eapply steps_fwd; [|apply steps_nil].
    apply (l_super 0 0 (Some 1) None (St [Lt (Level 0) (Level 1)] 2 1)); cbn; try lia; constructor.
  - intros k X. cbn in X. repeat destruct X as [X|X]; inversion X; subst; discriminate.
  - cbn. constructor; [intros []|constructor].
  - cbn [facts] in V. rewrite !Forall_cons_iff in V. cbn [holds] in V. destruct V as (V2 & V3 & _). lra.
Qed.
Print Assumptions C60_early_refuted.
