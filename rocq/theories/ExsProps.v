(** C73: verified methods keep their contracts, also when they raise exceptions. *)
From Coq Require Import List Bool Arith Relations Lia.
From Verif Require Import ExsSpec ExsModel ExsProofs.
Import ListNotations.

(** In a verified program a method that is called with its precondition, and whatever
    overriding methods run inside of it, returns only with its postconditions, raises only
    exceptions that it declares, with their postconditions, and no assertion and no
    precondition of a call is ever violated. Programs with while loops and without finally,
    for every choice of the variables that Viper forgets in loops. *)
Theorem C73_contracts_kept_partial :
  forall St Exn isa meth havocs sub_cls, program_verified St Exn isa meth havocs sub_cls -> well_typed St Exn isa meth ->
    forall m s o, runs St Exn isa meth m s o -> holds (requires (sig (meth m))) s -> keeps St Exn isa (sig (meth m)) s o.
Proof. exact whole. Qed.
Print Assumptions C73_contracts_kept_partial.

(** A verified method is correct whenever the methods that it calls are. *)
Theorem C73_method :
  forall St Exn isa meth havocs m, verified St Exn isa meth havocs m -> correct_alone St Exn isa meth m.
Proof. exact verified_sound. Qed.
Print Assumptions C73_method.
(** For methods without loops the converse holds as well. *)
Theorem C73_method_exact_partial :
  forall St Exn isa meth havocs m, (forall b, body m = Some b -> loop_free St Exn b) ->
    (verified St Exn isa meth havocs m <-> correct_alone St Exn isa meth m).
Proof. exact verified_iff. Qed.
Print Assumptions C73_method_exact_partial.

(** while True: if s: return; f(): the method is correct, but if Viper forgets the variable
    for the exception of the method in the loop, as f may assign it, it is rejected: the
    variable is set to null only after the loop, not before the return. *)
Definition may_raise : contract bool bool := {| requires := []; ensures := []; exsures := [(0, fun _ _ _ => true)] |}.
Definition looping (fs : stmt bool bool) : stmt bool bool :=
  SSeq (SIf (fun s => s) (SReturn (fun s => s)) SSkip) fs.
Definition call_f : stmt bool bool := SCall 0 (fun _ => 0) (fun s => s) (fun _ s => s).
Definition looper : method bool bool :=
  {| sig := may_raise; body := Some (SWhile (fun _ => true) (fun _ _ => True) (fun _ => true) (looping call_f)); overrides := None |}.
Theorem C73_loop_return_refuted :
  exists meth, correct_alone bool bool (fun e _ => e) meth looper /\
    forall havocs, havocs (tr bool bool meth may_raise [] (looping call_f)) Merr = true ->
      ~ verified bool bool (fun e _ => e) meth havocs looper.
Proof.
  exists (fun _ => {| sig := may_raise; body := None; overrides := None |}). split.
  - intros b s o E _ A. injection E as <-.
    assert (B : forall s o, alone bool bool (fun e _ => e) (fun _ => {| sig := may_raise; body := None; overrides := None |}) (looping call_f) s o ->
      match o with Norm _ | Ret _ => True | Raised e _ => e = true | _ => False end).
    { intros s0 o0 X. inversion X; subst; clear X.
      - match goal with C : alone _ _ _ _ call_f _ _ |- _ => inversion C; subst; clear C end.
        + exact Logic.I.
        + match goal with K : keeps _ _ _ _ _ _ |- _ => destruct K as ((d & p & _ & J) & _); exact J end.
        + match goal with K : ~ holds _ _ |- _ => exfalso; apply K; constructor end.
      - match goal with C : alone _ _ _ _ (SIf _ _ _) _ _ |- _ => inversion C; subst; clear C end.
        destruct s0; match goal with C : alone _ _ _ _ _ _ _ |- _ => inversion C; subst; clear C end; exact Logic.I. }
    inversion A; subst; clear A; try discriminate.
    + match goal with C : alone _ _ _ _ (looping _) _ _ |- _ => destruct (B _ _ C) end.
    + match goal with C : alone _ _ _ _ (looping _) _ _, L : leaves _ _ _ |- _ => apply B in C; destruct o; try destruct L; try contradiction end.
      * constructor.
      * split; [exists 0, (fun _ _ _ => true); split; [left; reflexivity|assumption]|].
        intros d p [I | []] _. injection I as <- <-. reflexivity.
  - intros havocs HV V. specialize (V true (fun _ => None) (Forall_nil _)). cbn zeta in V.
    destruct V as (_ & V).
    specialize (V true (fun x => match x with Merr => Some false | _ => None end) Logic.I eq_refl).
    refine (_ (V _)).
    + intros P. cbn in P. apply Forall_inv_tail in P. apply Forall_inv in P. discriminate P.
    + intros x HX. destruct x; [|reflexivity|reflexivity]. change (havocs (tr bool bool (fun _ => {| sig := may_raise; body := None; overrides := None |}) may_raise [] (looping call_f)) Merr = false) in HX. congruence.
Qed.
Print Assumptions C73_loop_return_refuted.

(** The check of an overriding method is sound, and it accepts all methods that raise only
    subclasses of what the overridden method declares, and declare something if that does. *)
Theorem C73_override :
  forall St Exn isa sub_cls sub sup, override_verified St Exn isa sub_cls sub sup -> refines St Exn isa sub sup.
Proof.
  intros St Exn isa sub_cls sub sup.
  exact (override_refines St Exn isa sub_cls sub sup).
Qed.
Print Assumptions C73_override.
Theorem C73_override_accepts_partial :
  forall St Exn isa sub_cls sub sup, refines St Exn isa sub sup ->
    (forall c p, In (c, p) (exsures sub) -> exists c' p', In (c', p') (exsures sup) /\ sub_cls c c' = true) ->
    (exsures sup <> [] -> exsures sub <> []) ->
    override_verified St Exn isa sub_cls sub sup.
Proof.
  intros St Exn isa sub_cls sub sup.
  exact (override_complete St Exn isa sub_cls sub sup).
Qed.
Print Assumptions C73_override_accepts_partial.

(** An overriding method that raises nothing is rejected if the overridden one declares an
    exception: the variable for the exception is not assigned in the check. *)
Theorem C73_override_accepts_refuted :
  ~ (forall St Exn isa sub_cls sub sup, refines St Exn isa sub sup ->
       (forall c p, In (c, p) (exsures sub) -> exists c' p', In (c', p') (exsures sup) /\ sub_cls c c' = true) ->
       override_verified St Exn isa sub_cls sub sup).
Proof.
  intros H.
  destruct (H unit bool (fun e _ => e) (fun _ _ => true)
    {| requires := []; ensures := []; exsures := [] |}
    {| requires := []; ensures := []; exsures := [(0, fun _ _ _ => true)] |}) as (_ & O).
  - intros s _. split; [constructor|]. intros [s' | s' | e s' | s' | s'|] NL K; cbn in *; [constructor|constructor| |destruct K|destruct K|congruence].
    destruct K as ((d & p & [] & _) & _).
  - intros c p [].
  - destruct (O tt (Some false) (Forall_nil _)) as (_ & P).
    specialize (P tt None (Forall_nil _)). cbn in P. apply Forall_inv_tail in P. apply Forall_inv in P. discriminate P.
Qed.
Print Assumptions C73_override_accepts_refuted.

(** A program: f is overridden; g calls one of the two and catches its exception.
    States are numbers, exceptions are their classes, 0 is Exception. *)
Definition isa (e c : nat) : bool := (c =? 0) || (e =? c).
Definition k0 : contract nat nat :=
  {| requires := [fun x => x <=? 5]; ensures := [fun x y => y <? x]; exsures := [(1, fun x _ _ => x =? 0)] |}.
Definition k1 : contract nat nat :=
  {| requires := []; ensures := [fun x y => y <? x; fun _ y => y =? 0]; exsures := [(1, fun x _ _ => x =? 0); (1, fun _ _ y => y =? 0)] |}.
Definition k2 : contract nat nat :=
  {| requires := [fun x => x <=? 5]; ensures := [fun _ y => y <? 5]; exsures := [] |}.
Definition b0 : stmt nat nat := SIf (fun x => x =? 0) (SRaise (fun _ => 1)) (SDo (fun x => x - 1)).
Definition b1 : stmt nat nat := SIf (fun x => x =? 0) (SRaise (fun _ => 1)) (SReturn (fun _ => 0)).
Definition b2 : stmt nat nat :=
  STry (SCall 0 (fun x => if Nat.even x then 0 else 1) (fun x => x) (fun _ y => y))
       (HCons 2 (SAssert (fun _ => false)) (HCons 1 (SSeq (SAssert (fun x => x =? x)) (SDo (fun _ => 3))) HNil)) SSkip.
Definition k3 : contract nat nat := {| requires := [fun x => x <=? 5]; ensures := [fun _ y => y =? 0]; exsures := [] |}.
Definition b3 : stmt nat nat :=
  SWhile (fun x => x <=? 5) (fun _ _ => True) (fun x => 0 <? x) (SCall 0 (fun _ => 0) (fun x => x) (fun _ y => y)).
Definition prog (n : nat) : method nat nat :=
  match n with
  | 0 => {| sig := k0; body := Some b0; overrides := None |}
  | 1 => {| sig := k1; body := Some b1; overrides := Some 0 |}
  | 2 => {| sig := k2; body := Some b2; overrides := None |}
  | 3 => {| sig := k3; body := Some b3; overrides := None |}
  | _ => {| sig := k2; body := None; overrides := None |}
  end.
Lemma b0_ok : correct_alone nat nat isa prog (prog 0).
Proof.
  intros b s o E R A. injection E as <-. inversion A; subst; clear A. cbv beta in *.
  destruct (Nat.eqb_spec s 0) as [-> | N]; match goal with H : alone _ _ _ _ _ _ _ |- _ => inversion H; subst; clear H end.
  - split; [exists 1, (fun x _ _ => x =? 0); split; [left; reflexivity|reflexivity]|].
    intros d p [I | []] _. injection I as <- <-. reflexivity.
  - constructor; [|constructor]. apply Nat.ltb_lt. lia.
Qed.
Lemma b1_ok : correct_alone nat nat isa prog (prog 1).
Proof.
  intros b s o E R A. injection E as <-. inversion A; subst; clear A. cbv beta in *.
  destruct (Nat.eqb_spec s 0) as [-> | N]; match goal with H : alone _ _ _ _ _ _ _ |- _ => inversion H; subst; clear H end.
  - split; [exists 1, (fun x _ _ => x =? 0); split; [left; reflexivity|reflexivity]|].
    intros d p [I | [I | []]] J; injection I as <- <-; reflexivity.
  - constructor; [apply Nat.ltb_lt; lia|]. constructor; [reflexivity|constructor].
Qed.
Lemma b2_ok : correct_alone nat nat isa prog (prog 2).
Proof.
  intros b s o E R A. injection E as <-. apply Forall_inv in R. cbn in R.
  assert (C : forall o, alone nat nat isa prog (SCall 0 (fun x => if Nat.even x then 0 else 1) (fun x => x) (fun _ y => y)) s o ->
     (exists s', o = Norm s' /\ s' < s) \/ exists s', o = Raised 1 s').
  { intros o' B. inversion B; subst; clear B.
    - match goal with K : keeps _ _ _ _ _ _ |- _ => apply Forall_inv in K; apply Nat.ltb_lt in K end. left. eauto.
    - match goal with K : keeps _ _ _ _ _ _ |- _ => destruct K as ((d & p & [I | []] & J) & _) end. injection I as <- <-.
      right. exists s'. unfold isa in J. cbn in J. apply Nat.eqb_eq in J. subst e. reflexivity.
    - exfalso. match goal with K : ~ holds _ _ |- _ => apply K end. constructor; [exact R|constructor]. }
  assert (F : forall o s', alone nat nat isa prog (SSeq (SAssert (fun x => x =? x)) (SDo (fun _ => 3))) s' o -> o = Norm 3).
  { intros o' s' B. inversion B; subst; clear B.
    - match goal with H : alone _ _ _ _ (SDo _) _ _ |- _ => inversion H; reflexivity end.
    - match goal with H : alone _ _ _ _ (SAssert _) _ _ |- _ => inversion H; subst end.
      + exfalso. match goal with H : forall _, _ <> _ |- _ => exact (H _ eq_refl) end.
      + rewrite Nat.eqb_refl in *. discriminate. }
  apply Nat.leb_le in R.
  inversion A; subst; clear A;
    repeat match goal with H : alone _ _ _ _ (SCall _ _ _ _) _ _ |- _ => apply C in H end;
    repeat match goal with
    | H : _ \/ _ |- _ => destruct H
    | H : exists _, _ |- _ => destruct H
    | H : _ /\ _ |- _ => destruct H
    | H : Norm _ = Norm _ |- _ => injection H as ->
    | H : Raised _ _ = Raised _ _ |- _ => injection H as -> ->
    | H : _ = _ |- _ => discriminate H
    end; try (subst; match goal with H : passes _ _ _ |- _ => destruct H end).
  - match goal with H : alone _ _ _ _ SSkip _ _ |- _ => inversion H; subst; clear H end.
    constructor; [|constructor]. apply Nat.ltb_lt. lia.
  - match goal with H : find_handler _ _ _ _ _ = Some _ |- _ => cbn in H; injection H as <- end.
    match goal with H : alone _ _ _ _ (SSeq _ _) _ _ |- _ => apply F in H; subst end. constructor; [reflexivity|constructor].
Qed.
Lemma b3_ok havocs : verified nat nat isa prog havocs (prog 3).
Proof.
  intros s ev R. cbn zeta. apply Forall_inv in R.
  assert (N : forall s', posts_hold nat nat isa k3 s s' None <-> (s' =? 0) = true).
  { intros s'. rewrite (posts_none nat nat isa). cbn. split; [exact (@Forall_inv _ _ _ _)|]. intros X. constructor; [exact X|constructor]. }
  assert (U : forall s' err, posts_hold nat nat isa k3 s s' err <-> posts_hold nat nat isa k3 s s' None).
  { intros s' err. rewrite (posts_undeclared nat nat isa k3 s s' err eq_refl), (posts_undeclared nat nat isa k3 s s' None eq_refl). reflexivity. }
  cbn [tr b3 body prog sig]. change (declares nat nat k3) with false. change (declares nat nat k0) with true. cbv iota. cbn [wp].
  split; [exact R|]. intros s1 ev1 _ I1 _. destruct (Nat.ltb_spec 0 s1) as [P | P].
  - split; [constructor; [exact I1|constructor]|]. intros s' [e|] K.
    + exfalso. apply (posts_some nat nat isa) in K; [|reflexivity]. destruct K as ((d & p & [X | []] & J) & C).
      injection X as <- _. specialize (C 1 (fun x _ _ => x =? 0) (or_introl eq_refl) J). apply Nat.eqb_eq in C. lia.
    + cbn. apply (posts_none nat nat isa) in K. apply Forall_inv in K. apply Nat.ltb_lt in K. apply Nat.leb_le in I1. apply Nat.leb_le. lia.
  - rewrite U, N. apply Nat.eqb_eq. lia.
Qed.
Example C73_ex_verified : forall havocs, program_verified nat nat isa prog havocs (fun a b => (b =? 0) || (a =? b)).
Proof.
  intros havocs. split.
  - intros m. destruct m as [|[|[|[|m]]]]; [| | |exact (b3_ok havocs)|exact Logic.I];
      (apply verified_iff; [intros b E; injection E as <-; cbn; tauto|]); [exact b0_ok|exact b1_ok|exact b2_ok].
  - intros m m' O. destruct m as [|[|[|[|m]]]]; cbn in O; try discriminate. injection O as <-.
    apply (override_complete nat nat isa).
    + intros x R. split; [constructor|]. intros [y | y | e y | y | y|] NL K; cbn in K; [| | |destruct K|destruct K|congruence].
      * constructor; [exact (Forall_inv K)|constructor].
      * constructor; [exact (Forall_inv K)|constructor].
      * destruct K as ((d & p & I & J) & P).
        assert (D : d = 1) by (destruct I as [I | [I | []]]; injection I as <- _; reflexivity). subst d.
        split; [exists 1, (fun x _ _ => x =? 0); split; [left; reflexivity|exact J]|].
        intros d q [Q | []] _. injection Q as <- <-. apply (P 1 (fun x _ _ => x =? 0)); [left; reflexivity|exact J].
    + intros c p I. exists 1, (fun x _ _ => x =? 0). split; [left; reflexivity|].
      destruct I as [I | [I | []]]; injection I as <- _; reflexivity.
    + discriminate.
Qed.
Example C73_ex_typed : well_typed nat nat isa prog.
Proof.
  intros m b E. destruct m as [|[|[|[|m]]]]; cbn in E; try discriminate; injection E as <-; cbn; auto.
  2: { split; [intros s; apply rt_refl|auto]. }
  repeat match goal with |- _ /\ _ => split end; auto.
  intros s. destruct (Nat.even s); [apply rt_refl|]. apply rt_step. reflexivity.
Qed.
(** g(3) runs the overriding method, g(0) catches its exception. *)
Example C73_ex_runs : runs nat nat isa prog 2 3 (Norm 0) /\ runs nat nat isa prog 2 0 (Norm 3) /\ runs nat nat isa prog 1 0 (Raised 1 0).
Proof.
  assert (F : runs nat nat isa prog 1 0 (Raised 1 0)).
  { eapply R_body; [reflexivity|]. apply E_if. cbn. exact (E_raise nat nat isa prog (fun _ => 1) 0). }
  split; [|split; [|exact F]].
  - eapply R_body; [reflexivity|]. eapply E_try; [|apply E_skip].
    refine (E_call nat nat isa prog 0 _ _ _ 3 (Ret 0) _). eapply R_body; [reflexivity|]. apply E_if. cbn. exact (E_return nat nat isa prog (fun _ => 0) 3).
  - eapply R_body; [reflexivity|]. eapply E_try_caught with (e := 1) (s' := 0); [|reflexivity|].
    + refine (E_call nat nat isa prog 0 _ _ _ 0 (Raised 1 0) _). eapply R_body; [reflexivity|]. apply E_if. cbn. exact (E_raise nat nat isa prog (fun _ => 1) 0).
    + eapply E_seq; [apply E_assert; reflexivity|]. exact (E_do nat nat isa prog (fun _ => 3) 0).
Qed.
(** Rejected: a method that raises something that it does not declare. *)
Example C73_ex_rejected : forall havocs, ~ verified nat nat isa prog havocs {| sig := k0; body := Some (SRaise (fun _ => 2)); overrides := None |}.
Proof.
  intros havocs V. apply verified_sound in V.
  specialize (V _ 0 _ eq_refl ltac:(constructor; [reflexivity|constructor]) (A_raise _ _ _ _ (fun _ => 2) 0)).
  destruct V as ((d & p & [I | []] & J) & _). injection I as <- _. discriminate J.
Qed.
