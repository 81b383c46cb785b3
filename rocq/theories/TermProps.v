(* C29 (termination part): a checked termination promise is kept. *)

From Coq Require Import List Bool Arith ZArith Lia.
From Verif Require Import TermModel TermSpec TermProofs.
Import ListNotations.

(* If all generated checks of a program succeed, then a method called in a state in which
   one of its MustTerminate preconditions applies always comes to an end, whichever
   overriding method runs, however deep its recursion and its loops are. *)
Theorem C29_promise_terminates : forall (St : Type) (P : program St) th, accepted P th ->
  forall m s, m_kind (p_method P m) = Verified -> m_pre (p_method P m) s ->
    positive_method (m_term (p_method P m)) s = true ->
    tcond_no_measure (m_term (p_method P m)) s = true ->
    forall n, runs P m n -> terminates P (m_body (p_method P n)) s.
Proof. exact @promise_terminates. Qed.
Print Assumptions C29_promise_terminates.

(* The same, said with infinite executions. *)
Theorem C29_no_infinite_run : forall (St : Type) (P : program St) th, accepted P th ->
  forall m s, m_kind (p_method P m) = Verified -> m_pre (p_method P m) s ->
    positive_method (m_term (p_method P m)) s = true ->
    tcond_no_measure (m_term (p_method P m)) s = true ->
    forall n, runs P m n -> ~ diverges P (m_body (p_method P n)) s.
Proof. exact @promise_no_run. Qed.
Print Assumptions C29_no_infinite_run.

(* A loop whose invariant contains an applicable MustTerminate comes to an end, also in a
   method that does not promise to terminate. *)
Theorem C29_loop_terminates : forall (St : Type) (P : program St) th, accepted P th ->
  forall m s0 perm l body s,
    m_kind (p_method P m) = Verified -> m_pre (p_method P m) s0 ->
    positive_method (m_term (p_method P m)) s0 = true ->
    passes P th (init_map th false (m_term (p_method P m)) (m_other (p_method P m)) s0)
      perm (Loop l body) s ->
    tcond_no_measure (l_term l) s = true -> terminates P (Loop l body) s.
Proof. exact @loop_terminates. Qed.
Print Assumptions C29_loop_terminates.

(* After a loop exactly the obligations to terminate held before it are held again. *)
Theorem C29_loop_restores : forall before gained, after_reset before gained = before.
Proof. exact after_reset_same. Qed.
Print Assumptions C29_loop_restores.

(* An accepted program.  Method 0, in a state n >= 0, promises to terminate with measure
   n + 1; it calls itself with n - 1 or, at 0, counts up to 3 in a loop that promises to
   terminate with measure 3 - n.  Method 1 overrides it and returns at once, promising
   measure 1.  The other methods promise nothing and call themselves forever. *)
Definition C29_loop : loop Z :=
  {| l_test := fun s => Z.ltb s 3;
     l_term := [{| t_guard := fun _ => true; t_measure := fun s => (3 - s)%Z |}];
     l_other := [] |}.

Definition C29_method (m : nat) : method Z :=
  match m with
  | 0 => {| m_kind := Verified; m_pre := fun s => (0 <= s)%Z;
            m_term := [{| t_guard := fun _ => true; t_measure := fun s => (s + 1)%Z |}];
            m_other := [];
            m_body := Cond (fun s => Z.ltb 0 s)
              (Call 0 (fun s => (s - 1)%Z) (fun s _ => s))
              (Loop C29_loop (Basic (fun s o s' => o = Continue /\ s' = (s + 1)%Z)));
            m_effect := fun _ _ _ => False |}
  | 1 => {| m_kind := Verified; m_pre := fun s => (0 <= s)%Z;
            m_term := [{| t_guard := fun _ => true; t_measure := fun _ => 1%Z |}];
            m_other := []; m_body := Basic (fun s o s' => o = Return /\ s' = s);
            m_effect := fun _ _ _ => False |}
  | _ => {| m_kind := Verified; m_pre := fun _ => True; m_term := []; m_other := [];
            m_body := Call m (fun s => s) (fun s _ => s); m_effect := fun _ _ _ => False |}
  end.

Definition C29_program : program Z :=
  {| p_method := C29_method; p_overrides := fun m n => m = 0 /\ n = 1 |}.

Example C29_program_accepted : accepted C29_program 7.
Proof.
  split.
  - intros m s _ Hpre _. destruct m as [|[|m]]; cbn [p_method C29_program C29_method] in *;
      cbn [m_pre m_body m_term m_other] in *.
    + cbn [passes]. destruct (Z.ltb_spec 0 s) as [L|L].
      * cbn [p_method C29_program C29_method m_pre m_term m_kind].
        split; [lia|]. split.
        -- unfold positive_method. cbn [forallb t_guard t_measure implb].
           rewrite andb_true_r. apply Z.ltb_lt. lia.
        -- exists true. unfold caller_check, tcond, init_map, measure_check.
           cbn [existsb map flat_map app forallb t_guard t_measure e_guard e_key e_value andb implb].
           rewrite Z.eqb_refl. cbn [implb].
           rewrite (proj2 (Z.ltb_lt (s - 1 + 1) (s + 1))) by lia. reflexivity.
      * unfold positive_loop.
        split; [|split].
        -- cbn [C29_loop l_term l_test forallb t_guard t_measure implb].
           rewrite (proj2 (Z.ltb_lt s 3)), (proj2 (Z.ltb_lt 0 (3 - s))) by lia. reflexivity.
        -- exists true. reflexivity.
        -- intros s1 _ T1. split; [exact Logic.I|]. intros o s2 Ex _.
           inversion Ex as [r ? ? ? E| | | | | | | | | |]; subst. destruct E as [_ ->].
           cbn [C29_loop l_term l_test] in *. apply Z.ltb_lt in T1.
           destruct (Z.ltb_spec (s1 + 1) 3) as [L2|L2].
           ++ unfold end_of_body_check, tcond, init_map, measure_check.
              cbn [existsb map flat_map app forallb t_guard t_measure e_guard e_key e_value
                   andb implb negb orb l_other C29_loop].
              rewrite Z.eqb_refl. cbn [implb].
              rewrite (proj2 (Z.ltb_lt (3 - (s1 + 1)) (3 - s1))) by lia.
              rewrite (proj2 (Z.ltb_lt 0 (3 - (s1 + 1)))) by lia. split; reflexivity.
           ++ split; [|reflexivity]. unfold end_of_body_check. cbn [negb orb].
              destruct (tcond_no_measure _ _); reflexivity.
    + exact Logic.I.
    + cbn. split; [exact Logic.I|]. split; [reflexivity|]. exists true. reflexivity.
  - intros m n s [-> ->] Hpre _. cbn [p_method C29_program C29_method m_pre m_term] in *.
    split; [exact Hpre|]. split; [reflexivity|]. exists true.
    unfold override_check, caller_check, tcond, init_map, measure_check.
    cbn [existsb map flat_map app forallb t_guard t_measure e_guard e_key e_value andb implb m_other].
    rewrite Z.eqb_refl. cbn [implb].
    rewrite (proj2 (Z.ltb_lt 1 (s + 1 + 1))) by lia. reflexivity.
  - intros m n [-> ->]. split; reflexivity.
Qed.

Example C29_program_diverges : forall s, diverges C29_program (m_body (C29_method 2)) s.
Proof.
  cofix H. intro s. apply div_call with (n := 2); [constructor|reflexivity|]. apply H.
Qed.
