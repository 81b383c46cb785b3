(** Theorems about input/output operations. *)
From Coq Require Import List Bool Arith ZArith Lia Wellfounded.
Import ListNotations.
From Verif Require Import IoModel IoSpec IoProofs IoOpenProofs.
Local Open Scope nat_scope.

(** C64: if the termination checks of all operations verify, an operation that is declared
    to terminate for its inputs does not consist of other operations without end, whatever
    the environment answers. Proved if existential variables are defined outside of
    conditions. *)
Theorem C64_terminates_partial : forall P a, terms_ok P -> well_formed P -> inputs P a -> declared_to_terminate P a ->
  Acc (fun y x => expands P x y) a.
Proof. exact terminates. Qed.
Print Assumptions C64_terminates_partial.

(** The termination measure bounds the depth; what the operation consists of is declared to
    terminate, too, and is never gap_io. *)
Theorem C64_bounded_partial : forall P a b n z, terms_ok P -> well_formed P -> inputs P a -> declared_to_terminate P a ->
  declared_measure P a z -> steps P n a b -> (Z.of_nat n < z)%Z /\ declared_to_terminate P b /\ (n <> 0 -> fst b <> gap).
Proof. exact bounded. Qed.
Print Assumptions C64_bounded_partial.

(** Operation 3, repeat(t, n) -> end: read(t, x, t2) and, if 0 < n, repeat(t2, n - 1, end),
    otherwise stop(t2, end). Terminates(n > -1), TerminationMeasure(n + 2). *)
Definition basic (ps rs : list nat) : op :=
  {| params := ps; results := rs; existentials := []; term := EInt 1; measure := EInt 1; def := None |}.
Definition rep_body := BAnd (BOp 1 [EVar 1] [4; 5])
  (BIf (ELt (EInt 0) (EVar 2)) (BOp 3 [EVar 5; EAdd (EVar 2) (EInt (-1))] [3]) (BOp 2 [EVar 5] [3])).
Definition rep := {| params := [1; 2]; results := [3]; existentials := [4; 5]; term := ELt (EInt (-1)) (EVar 2);
                     measure := EAdd (EVar 2) (EInt 2); def := Some rep_body |}.
Definition rep_prog : prog := [(1, basic [1] [2; 3]); (2, basic [1] [2]); (3, rep)].

Lemma basic_ok : forall P ps rs, term_ok P (basic ps rs).
Proof. intros P ps rs. exists (VInt 1), (VInt 1). do 2 (split; [reflexivity|]). intros G rho. split; [intros _; reflexivity|exact Logic.I]. Qed.
Lemma basic_wf : forall ps rs, NoDup (ps ++ rs) -> distinct (basic ps rs) /\ well_defined (basic ps rs).
Proof. intros ps rs N. split; [unfold distinct; cbn; rewrite app_nil_r; exact N|]. intros b E. discriminate. Qed.
Ltac nodup := repeat (constructor; [cbn; intuition discriminate|]); constructor.

Example C64_ex_well_formed : well_formed rep_prog.
Proof.
  split; [nodup|]. intros o p I. cbn in I. destruct I as [I|[I|[I|[]]]]; injection I as <- <-.
  - apply basic_wf. nodup.
  - apply basic_wf. nodup.
  - split; [unfold distinct; cbn; nodup|]. intros b E. injection E as <-. split; [exact Logic.I|].
    cbn. intros x X Y. intuition (subst; discriminate).
Qed.
Example C64_ex_verifies : terms_ok rep_prog.
Proof.
  intros o p I. cbn in I. destruct I as [I|[I|[I|[]]]]; injection I as <- <-; try apply basic_ok.
  exists (VLt (VInt (-1)) (VVar 2)), (VAdd (VVar 2) (VInt 2)). do 2 (split; [reflexivity|]). intros G rho.
  assert (T : truth (veval G rho (fun _ => 0%Z) (VLt (VInt (-1)) (VVar 2))) = true -> (rho 2%nat >= 0)%Z).
  { cbn [veval]. destruct (-1 <? rho 2%nat)%Z eqn:E; cbn; [intros _; lia|discriminate]. }
  split; [intros H; apply T in H; cbn [veval]; lia|]. cbn [def rep].
  eexists. eexists. eexists. split; [reflexivity|]. split; [reflexivity|]. split; [reflexivity|].
  repeat constructor.
  - discriminate.
  - eexists. eexists. eexists. do 3 (split; [reflexivity|]). split; [reflexivity|]. apply T in H. cbn [veval]. lia.
  - discriminate.
  - apply T in H. inversion H0 as [|? ? H1 _]; subst. cbn [veval] in H1. destruct (0 <? rho 2%nat)%Z eqn:E; [|discriminate].
    eexists. eexists. eexists. do 3 (split; [reflexivity|]). cbn [veval].
    destruct (-1 <? rho 2%nat + -1)%Z eqn:E'; [split; [reflexivity|lia]|lia].
  - discriminate.
  - eexists. eexists. eexists. do 3 (split; [reflexivity|]). split; [reflexivity|]. apply T in H. cbn [veval]. lia.
Qed.
Example C64_ex_terminates : forall t n, (n >= 0)%Z -> Acc (fun y x => expands rep_prog x y) (3, [t; n]).
Proof.
  intros t n N. apply C64_terminates_partial; [exact C64_ex_verifies|exact C64_ex_well_formed|exists rep; split; reflexivity|].
  exists rep. split; [reflexivity|]. intros s E. cbn in E. injection E as _ E. unfold holds. cbn [term rep eval]. rewrite E.
  destruct (-1 <? n)%Z eqn:X; [reflexivity|lia].
Qed.
(** Two levels of repeat(t, 1), with any answer of read. *)
Example C64_ex_steps : forall x, exists t2, steps rep_prog 1 (3, [0; 1]%Z) (3, [t2; 0]%Z) /\ steps rep_prog 2 (3, [0; 1]%Z) (1, [t2]) /\ t2 = x.
Proof.
  intros x. exists x. set (W := fun (o : nat) (_ : list Z) (k : nat) => if (o =? 1) && (k =? 1) then x else 0%Z).
  assert (A : expands rep_prog (3, [0; 1]%Z) (3, [x; 0]%Z)).
  { exists rep, rep_body, W, (fun v => match v with 2 => 1%Z | 5 => x | _ => 0%Z end).
    do 2 (split; [reflexivity|]). split; [split; [reflexivity|intros [|[|k]] r E; cbn in E; try discriminate; injection E as <-; reflexivity]|].
    split; [split|].
    - intros [|[|[|k]]] r E; cbn in E; try discriminate; injection E as <-; reflexivity.
    - change (results_agree W (fun v => match v with 2 => 1%Z | 5 => x | _ => 0%Z end) (BOp 3 [EVar 5; EAdd (EVar 2) (EInt (-1))] [3])).
      intros [|[|k]] r E; cbn in E; try discriminate; injection E as <-; reflexivity.
    - right. left. reflexivity. }
  assert (B : expands rep_prog (3, [x; 0]%Z) (1, [x])).
  { exists rep, rep_body, (fun _ _ _ => 0%Z), (fun v => match v with 1 => x | _ => 0%Z end).
    do 2 (split; [reflexivity|]). split; [split; [reflexivity|intros [|[|k]] r E; cbn in E; try discriminate; injection E as <-; reflexivity]|].
    split; [split|].
    - intros [|[|[|k]]] r E; cbn in E; try discriminate; injection E as <-; reflexivity.
    - change (results_agree (fun _ _ _ => 0%Z) (fun v => match v with 1 => x | _ => 0%Z end) (BOp 2 [EVar 5] [3])).
      intros [|[|k]] r E; cbn in E; try discriminate; injection E as <-; reflexivity.
    - left. reflexivity. }
  repeat split; econstructor; eauto; try econstructor; eauto. constructor.
Qed.

(** Without that condition it is false: an existential variable stands for the result of the
    first operation in the text, also where another one was performed. Operation 3,
    loop(t, c): Implies(c, first(t, x, t2)) and Implies(not c, second(t, x, t2)) and
    Implies(not c, first(t, y, t3)) and Implies(not c, Implies(not x == y, loop(t2, c))). *)
Definition loop_body :=
  BAnd (BImp (EVar 2) (BOp 1 [EVar 1] [3; 4]))
  (BAnd (BImp (ENot (EVar 2)) (BOp 2 [EVar 1] [3; 4]))
  (BAnd (BImp (ENot (EVar 2)) (BOp 1 [EVar 1] [5; 6]))
        (BImp (ENot (EVar 2)) (BImp (ENot (EEq (EVar 3) (EVar 5))) (BOp 3 [EVar 4; EVar 2] []))))).
Definition loop := {| params := [1; 2]; results := []; existentials := [3; 4; 5; 6]; term := EInt 1; measure := EInt 2; def := Some loop_body |}.
Definition loop_prog : prog := [(1, basic [1] [2; 3]); (2, basic [1] [2; 3]); (3, loop)].

Theorem C64_conditional_refuted : ~ (forall P a, terms_ok P -> NoDup (map fst P) -> (forall o p, In (o, p) P -> distinct p) ->
  inputs P a -> declared_to_terminate P a -> Acc (fun y x => expands P x y) a).
Proof.
  intros H. assert (A : Acc (fun y x => expands loop_prog x y) (3, [0; 0]%Z)).
  { apply H.
    - intros o p I. cbn in I. destruct I as [I|[I|[I|[]]]]; injection I as <- <-; try apply basic_ok.
      exists (VInt 1), (VInt 2). do 2 (split; [reflexivity|]). intros G rho. split; [reflexivity|]. cbn [def loop].
      eexists. eexists. eexists. split; [reflexivity|]. split; [reflexivity|]. split; [reflexivity|].
      constructor; [|constructor; [|constructor; [|constructor; [|constructor]]]]; intros _ G1; (split; [discriminate|]);
        try (eexists; eexists; eexists; repeat (split; [reflexivity|]); reflexivity).
      exfalso. inversion G1 as [|? ? _ G2]; subst. inversion G2 as [|? ? G3 _]; subst. revert G3.
      cbn [veval map]. rewrite Z.eqb_refl. discriminate.
    - nodup.
    - intros o p I. cbn in I. destruct I as [I|[I|[I|[]]]]; injection I as <- <-; unfold distinct; cbn; nodup.
    - exists loop. split; reflexivity.
    - exists loop. split; [reflexivity|]. intros s _. reflexivity. }
  assert (E : expands loop_prog (3, [0; 0]%Z) (3, [0; 0]%Z)).
  { exists loop, loop_body, (fun o _ k => if (o =? 2) && (k =? 0) then 1%Z else 0%Z), (fun v => if v =? 3 then 1%Z else 0%Z).
    do 2 (split; [reflexivity|]). split; [split; [reflexivity|intros [|k] r X; discriminate]|]. split.
    - split; [exact Logic.I|]. split; [|split].
      + change (results_agree (fun o _ k => if (o =? 2) && (k =? 0) then 1%Z else 0%Z) (fun v => if v =? 3 then 1%Z else 0%Z) (BOp 2 [EVar 1] [3; 4])).
        intros [|[|[|k]]] r X; cbn in X; try discriminate; injection X as <-; reflexivity.
      + change (results_agree (fun o _ k => if (o =? 2) && (k =? 0) then 1%Z else 0%Z) (fun v => if v =? 3 then 1%Z else 0%Z) (BOp 1 [EVar 1] [5; 6])).
        intros [|[|[|k]]] r X; cbn in X; try discriminate; injection X as <-; reflexivity.
      + change (results_agree (fun o _ k => if (o =? 2) && (k =? 0) then 1%Z else 0%Z) (fun v => if v =? 3 then 1%Z else 0%Z) (BOp 3 [EVar 4; EVar 2] [])).
        intros [|k] r X; discriminate.
    - cbn. tauto. }
  revert E. remember (3, [0; 0]%Z) as a eqn:Ea. clear Ea. induction A as [a _ IH]. intros E. exact (IH a E E).
Qed.
Print Assumptions C64_conditional_refuted.

(** C65: Open succeeds for accepted bodies, ... *)
Theorem C65_opens : forall P o p b args, accepted P p b -> distinct p -> known_names p b -> length args = length (params p) ->
  exists w, open_body o p b args = Some w.
Proof. exact opens. Qed.
Print Assumptions C65_opens.

(** ... and what it gives is the meaning of the body: for some values of the existential
    variables, the conditions hold and the operations may be performed. *)
Theorem C65_sound : forall P o p b args w G rho alpha l,
  accepted P p b -> distinct p -> forallb of_caller args = true -> length args = length (params p) ->
  open_body o p b args = Some w ->
  wcond G rho alpha w -> l = wperms G rho alpha w -> meaning G o p b (map (veval G rho alpha) args) l.
Proof. intros P o p b args w G rho alpha l H1 H2 H3 H4 H5 H6 H7. exact (proj1 (opened P o p b args w G rho alpha l H1 H2 H3 H4 H5) (conj H6 H7)). Qed.
Print Assumptions C65_sound.

(** Conversely, nothing more is assumed, if existential variables are defined outside of
    conditions. *)
Theorem C65_nothing_more_partial : forall P o p b args w G rho alpha l,
  accepted P p b -> distinct p -> forallb of_caller args = true -> length args = length (params p) ->
  open_body o p b args = Some w -> unconditional (existentials p) [] b ->
  meaning G o p b (map (veval G rho alpha) args) l -> wcond G rho alpha w /\ l = wperms G rho alpha w.
Proof. intros P o p b args w G rho alpha l H1 H2 H3 H4 H5 H6. exact (proj2 (opened P o p b args w G rho alpha l H1 H2 H3 H4 H5) H6). Qed.
Print Assumptions C65_nothing_more_partial.

Example C65_ex_accepted : accepted rep_prog rep rep_body /\ known_names rep rep_body /\ unconditional (existentials rep) [] rep_body.
Proof.
  split; [eexists; eexists; split; reflexivity|]. split; [intros x X; cbn in *; intuition|].
  apply C64_ex_well_formed with (o := 3); [cbn; auto|reflexivity].
Qed.
Example C65_ex_opens : open_body 3 rep rep_body [VVar 7; VInt 4] = Some
  (WAnd (WAcc 1 [VVar 7] [])
        (WIf (VLt (VInt 0) (VInt 4))
             (WAcc 3 [VGet 1 1 [VVar 7]; VAdd (VInt 4) (VInt (-1))]
                     [(VGet 3 0 [VGet 1 1 [VVar 7]; VAdd (VInt 4) (VInt (-1))], VGet 3 0 [VVar 7; VInt 4])])
             (WAcc 2 [VGet 1 1 [VVar 7]] [(VGet 2 0 [VGet 1 1 [VVar 7]], VGet 3 0 [VVar 7; VInt 4])]))).
Proof. reflexivity. Qed.
Example C65_ex_meaning : forall G rho, G 3 [G 1 [rho 7] 1; 3%Z] 0 = G 3 [rho 7; 4%Z] 0 ->
  meaning G 3 rep rep_body [rho 7; 4%Z] [(1, [rho 7]); (3, [G 1 [rho 7] 1; 3%Z])].
Proof.
  intros G rho E.
  refine (C65_sound rep_prog 3 rep rep_body [VVar 7; VInt 4] _ G rho (fun _ => 0%Z) _ (proj1 C65_ex_accepted) _ eq_refl eq_refl C65_ex_opens _ eq_refl).
  - apply C64_ex_well_formed with (o := 3). cbn. auto.
  - cbn. split; [constructor|]. constructor; [exact E|constructor].
Qed.

(** Otherwise Open assumes that two operations of which only one is performed have the same
    results. Operation 3, choose(t, c): Implies(c, first(t, x, t2)) and
    Implies(not c, second(t, x, t2)). *)
Definition choose_body := BAnd (BImp (EVar 2) (BOp 1 [EVar 1] [3; 4])) (BImp (ENot (EVar 2)) (BOp 2 [EVar 1] [3; 4])).
Definition choose := {| params := [1; 2]; results := []; existentials := [3; 4]; term := EInt 0; measure := EInt 1; def := Some choose_body |}.
Definition choose_prog : prog := [(1, basic [1] [2; 3]); (2, basic [1] [2; 3]); (3, choose)].
Theorem C65_choice_refuted : accepted choose_prog choose choose_body /\ distinct choose /\ known_names choose choose_body /\
  exists w, open_body 3 choose choose_body [VVar 7; VInt 0] = Some w /\
  exists G rho alpha l, meaning G 3 choose choose_body (map (veval G rho alpha) [VVar 7; VInt 0]) l /\ ~ wcond G rho alpha w.
Proof.
  split; [eexists; eexists; split; reflexivity|]. split; [unfold distinct; cbn; nodup|]. split; [intros x X; cbn in *; intuition|].
  eexists. split; [reflexivity|]. exists (fun o _ _ => Z.of_nat o), (fun _ => 0%Z), (fun _ => 0%Z). eexists. split.
  - exists (fun v => match v with 3 | 4 => 2%Z | _ => 0%Z end). split; [split; [reflexivity|intros [|k] r X; discriminate]|].
    split; [|split; [split; exact Logic.I|reflexivity]]. split; [exact Logic.I|].
    change (results_agree (fun o _ _ => Z.of_nat o) (fun v => match v with 3 | 4 => 2%Z | _ => 0%Z end) (BOp 2 [EVar 1] [3; 4])).
    intros [|[|[|k]]] r X; cbn in X; try discriminate; injection X as <-; reflexivity.
  - cbn. intros (_ & H). specialize (H eq_refl). inversion H as [|? ? H1 _]; subst. discriminate H1.
Qed.
Print Assumptions C65_choice_refuted.
