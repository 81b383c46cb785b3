(** Theorems about static fields. *)
From Coq Require Import List Bool Arith ZArith Lia.
From Verif Require Import StatModel StatSpec StatProofs.
Import ListNotations.
Local Open Scope nat_scope.

(** C63, partially: a verified program runs to its end without NameError, AttributeError or
    failing assertion, so that all reads of static fields give the values of Python, also of
    fields that are assigned outside of class bodies if their initial values are different
    literals. Missing: other fields that are assigned outside of class bodies, and names that are used for static
    fields and global variables or before they are assigned in the class (refuted below);
    circular values; branches, loops, methods and instance fields (not modelled). *)
Theorem C63_statics_partial : forall P, verifies P -> well_behaved P -> runs_fine P.
Proof. exact statics_fine. Qed.
Print Assumptions C63_statics_partial.

(** class A (0): SIZE (0) = 10; DOUBLE (1) = SIZE + SIZE
    class B (1) extends A: SIZE = A.SIZE + 1
    G (2) = A.DOUBLE; o = B(); assert o.SIZE == 11; assert G == 20 *)
Definition ex : prog :=
  [ SClass 0 None [(0, EInt 10); (1, EAdd (EName 0) (EName 0))];
    SClass 1 (Some 0) [(0, EAdd (EStat 0 0) (EInt 1))];
    SGlob 2 (EStat 0 1);
    SNew 7 1;
    SAssert (EEq (EInst 7 0) (EInt 11));
    SAssert (EEq (EName 2) (EInt 20)) ].

Example C63_ex_verifies : verifies ex.
Proof.
  split.
  - intros c x e E. unfold field_value in E. cbn in E.
    destruct c as [|[|c]]; try discriminate; cbn in E; destruct x as [|[|x]]; try discriminate; cbn in E; injection E as <-; reflexivity.
  - intros G F h SA GA.
    pose proof (SA 0 0 0 _ eq_refl eq_refl) as A1. pose proof (SA 0 1 0 _ eq_refl eq_refl) as A2.
    pose proof (SA 1 0 1 _ eq_refl eq_refl) as A3. pose proof (GA 2 _ eq_refl eq_refl) as A4.
    cbn -[Z.add Z.eqb] in *.
    split; [exact I|]. split; [reflexivity|]. intros _. split; [reflexivity|]. intros _.
    split; [reflexivity|]. split; [reflexivity|]. intros _. intros _.
    split; [reflexivity|].
    eexists. split; [reflexivity|]. rewrite A3, A1. cbn. split; [discriminate|].
    eexists. split; [reflexivity|]. rewrite A4, A2, A1. cbn. split; [discriminate|exact I].
Qed.

Example C63_ex_well_behaved : well_behaved ex.
Proof.
  split; [|split; [|split; [|split]]].
  - split; [|split; [|split]].
    + cbn. repeat constructor; cbn; intuition discriminate.
    + cbn. repeat constructor; cbn; intuition discriminate.
    + cbn. repeat constructor; cbn; intuition discriminate.
    + intros c sup fs H. cbn in H. decompose [or] H; clear H; try discriminate; try contradiction.
      * match goal with E : SClass _ _ _ = _ |- _ => injection E as <- <- <- end. cbn. repeat constructor; cbn; intuition discriminate.
      * match goal with E : SClass _ _ _ = _ |- _ => injection E as <- <- <- end. cbn. repeat constructor; cbn; intuition discriminate.
  - apply no_updates_apart. intros c x e H. cbn in H. decompose [or] H; try discriminate; contradiction.
  - intros x (e & H) (c & sup & fs & H2 & X). cbn in H, H2.
    decompose [or] H; clear H; try discriminate; try contradiction. match goal with E : SGlob _ _ = _ |- _ => injection E as <- <- end.
    decompose [or] H2; clear H2; try discriminate; try contradiction;
      match goal with E : SClass _ _ _ = _ |- _ => injection E as <- <- <- end; cbn in X; intuition discriminate.
  - split.
    + intros t e x T K Y. cbn in T. decompose [or] T; clear T; subst; try contradiction;
        destruct K as [K|[(y & K)|[(o & y & K)|(o & y & K)]]]; try discriminate; injection K as <- || (injection K as <- <-);
        cbn in Y; try contradiction; intuition subst; exists (EStat 0 1); cbn; auto 8.
    + intros c sup fs1 x e fs2 y H Y. cbn in H. decompose [or] H; clear H; try discriminate; try contradiction;
        match goal with E : SClass _ _ _ = _ |- _ => injection E as <- <- E' end.
      * destruct fs1 as [|p1 [|p2 [|p3 fs1]]]; cbn in E'; try discriminate.
        -- injection E' as <- <- <-. cbn in Y. contradiction.
        -- injection E' as <- <- <- <-. cbn in Y. left. cbn. intuition.
      * destruct fs1 as [|p1 [|p2 fs1]]; cbn in E'; try discriminate. injection E' as <- <- <-. cbn in Y. contradiction.
  - exists (fun v x => match v with None => 20 | Some c => 5 * c + x end).
    split; [|split].
    + intros c d fs x H X. cbn in H. decompose [or] H; clear H; try discriminate; try contradiction.
      match goal with E : SClass _ _ _ = _ |- _ => injection E as <- <- <- end. lia.
    + intros x e d y H M. cbn in H. decompose [or] H; clear H; try discriminate; try contradiction.
      match goal with E : SGlob _ _ = _ |- _ => injection E as <- <- end. inversion M; subst. lia.
    + intros c sup fs x e d y H X M N. cbn in H. decompose [or] H; clear H; try discriminate; try contradiction;
        match goal with E : SClass _ _ _ = _ |- _ => injection E as <- <- <- end; cbn in X.
      * destruct X as [X|[X|[]]]; injection X as <- <-; [inversion M|].
        inversion M; subst; match goal with M : mentions _ _ (EName _) _ _ |- _ => inversion M; subst end;
          try lia; exfalso; apply (N eq_refl); cbn; auto.
      * destruct X as [X|[]]; injection X as <- <-. inversion M; subst;
          match goal with M : mentions _ _ _ _ _ |- _ => inversion M; subst end; lia.
Qed.

Example C63_ex_runs : runs_fine ex.
Proof. eexists. vm_compute. reflexivity. Qed.

(** class A (0): X (0) = 5; Y (1) = 7; N (2) = 3
    class B (1) extends A: M (3) = A.N + 1
    A.X = A.X + 1; A.Y = A.X; assert A.X == 6; assert A.Y == 6; assert B.M == 4 *)
Definition upd : prog :=
  [ SClass 0 None [(0, EInt 5); (1, EInt 7); (2, EInt 3)];
    SClass 1 (Some 0) [(3, EAdd (EStat 0 2) (EInt 1))];
    SSet 0 0 (EAdd (EStat 0 0) (EInt 1));
    SSet 0 1 (EStat 0 0);
    SAssert (EEq (EStat 0 0) (EInt 6));
    SAssert (EEq (EStat 0 1) (EInt 6));
    SAssert (EEq (EStat 1 3) (EInt 4)) ].

Example C63_upd_verifies : verifies upd.
Proof.
  split.
  - intros c x e E. unfold field_value in E. cbn in E.
    destruct c as [|[|c]]; try discriminate; cbn in E; destruct x as [|[|[|[|x]]]]; try discriminate; cbn in E; injection E as <-; reflexivity.
  - intros G F h SA GA.
    pose proof (SA 0 0 0 _ eq_refl eq_refl) as A1. pose proof (SA 0 1 0 _ eq_refl eq_refl) as A2.
    pose proof (SA 0 2 0 _ eq_refl eq_refl) as A3. pose proof (SA 1 3 1 _ eq_refl eq_refl) as A4.
    cbn -[Z.add Z.eqb] in *. rewrite A1, A2, A3. rewrite A3 in A4.
    split; [exact I|]. split; [reflexivity|]. intros _. split; [reflexivity|]. intros _.
    unfold updz. cbn. repeat (split; [reflexivity|]).
    eexists. split; [reflexivity|]. split; [discriminate|].
    eexists. split; [reflexivity|]. split; [discriminate|].
    eexists. split; [reflexivity|]. rewrite A4. cbn. split; [discriminate|exact I].
Qed.

Example C63_upd_well_behaved : well_behaved upd.
Proof.
  split; [|split; [|split; [|split]]].
  - split; [|split; [|split]]; try solve [cbn; repeat constructor; cbn; intuition discriminate].
    intros c sup fs H. cbn in H. decompose [or] H; clear H; try discriminate; try contradiction;
      match goal with E : SClass _ _ _ = _ |- _ => injection E as <- <- <- end; cbn; repeat constructor; cbn; intuition discriminate.
  - assert (U : forall c x, updated upd c x -> c = 0 /\ (x = 0 \/ x = 1)).
    { intros c x (e & H). cbn in H. decompose [or] H; clear H; try discriminate; try contradiction;
        match goal with E : SSet _ _ _ = _ |- _ => injection E as <- <- <- end; auto. }
    split; [|split; [|split]].
    + intros c x H. destruct (U _ _ H) as (-> & [->| ->]); exists None, [(0, EInt 5); (1, EInt 7); (2, EInt 3)]; eexists; cbn; eauto.
    + intros c x c' x' sup fs sup' fs' z H H' I1 X1 I2 X2.
      destruct (U _ _ H) as (-> & HX), (U _ _ H') as (-> & HX').
      assert (fs = [(0, EInt 5); (1, EInt 7); (2, EInt 3)]) as -> by (cbn in I1; intuition congruence).
      assert (fs' = [(0, EInt 5); (1, EInt 7); (2, EInt 3)]) as -> by (cbn in I2; intuition congruence).
      cbn in X1, X2. split; [reflexivity|]. intuition congruence.
    + intros y e d x c H. cbn in H. intuition discriminate.
    + intros o x e c H. cbn in H. intuition discriminate.
  - intros x (e & H). cbn in H. intuition discriminate.
  - split.
    + intros t e x T K Y. cbn in T. decompose [or] T; clear T; subst; try contradiction;
        destruct K as [K|[(y & K)|[(o & y & K)|(o & y & K)]]]; try discriminate; inversion K; subst; contradiction.
    + intros c sup fs1 x e fs2 y H Y. exfalso. cbn in H. decompose [or] H; clear H; try discriminate; try contradiction;
        match goal with E : SClass _ _ _ = _ |- _ => injection E as <- <- E' end;
        destruct fs1 as [|p1 [|p2 [|p3 [|p4 fs1]]]]; cbn in E'; try discriminate; inversion E'; subst; cbn in Y; contradiction.
  - exists (fun v x => x). split; [|split].
    + intros; lia.
    + intros x e d y H. cbn in H. intuition discriminate.
    + intros c sup fs x e d y H X M N. cbn in H. decompose [or] H; clear H; try discriminate; try contradiction;
        match goal with E : SClass _ _ _ = _ |- _ => injection E as <- <- <- end; cbn in X.
      * destruct X as [X|[X|[X|[]]]]; injection X as <- <-; inversion M.
      * destruct X as [X|[]]; injection X as <- <-. inversion M; subst;
          match goal with M : mentions _ _ _ _ _ |- _ => inversion M; subst end; lia.
Qed.

(** Without the condition on the fields that are assigned outside of class bodies:
    two fields with the same initial value are held by the same reference, and having all
    permissions for it twice is a contradiction, so that everything verifies.
      class A: X = 5
      class B: Y = 5
      A.X = 6; B.Y = 7; assert 0 *)
Theorem C63_shared_refuted :
  exists P, verifies P /\ once P /\ separate P /\ scoped P /\ not_circular P /\ ~ runs_fine P.
Proof.
  exists [SClass 0 None [(0, EInt 5)]; SClass 1 None [(1, EInt 5)]; SSet 0 0 (EInt 6); SSet 1 1 (EInt 7); SAssert (EInt 0)].
  split; [|split; [|split; [|split; [|split]]]].
  - split.
    + intros c x e E. unfold field_value in E. cbn in E.
      destruct c as [|[|c]]; try discriminate; cbn in E; destruct x as [|[|x]]; try discriminate; cbn in E; injection E as <-; reflexivity.
    + intros G F h SA GA.
      pose proof (SA 0 0 0 _ eq_refl eq_refl) as A1. pose proof (SA 1 1 1 _ eq_refl eq_refl) as A2.
      cbn in A1, A2. cbn. rewrite A1, A2. split; [exact I|]. split; [reflexivity|]. intros _.
      split; [reflexivity|]. split; [reflexivity|]. split; [unfold updz; reflexivity|].
      split; [exact I|]. split; [reflexivity|]. unfold updz. cbn. discriminate.
  - split; [|split; [|split]]; try solve [cbn; repeat constructor; cbn; intuition discriminate].
    intros c sup fs H. cbn in H. decompose [or] H; clear H; try discriminate; try contradiction;
      match goal with E : SClass _ _ _ = _ |- _ => injection E as <- <- <- end; cbn; repeat constructor; cbn; intuition discriminate.
  - intros x (e & H) _. cbn in H. intuition discriminate.
  - split.
    + intros t e x T K Y. cbn in T. decompose [or] T; clear T; subst; try contradiction;
        destruct K as [K|[(y & K)|[(o & y & K)|(o & y & K)]]]; try discriminate; inversion K; subst; contradiction.
    + intros c sup fs1 x e fs2 y H Y. cbn in H. decompose [or] H; clear H; try discriminate; try contradiction;
        match goal with E : SClass _ _ _ = _ |- _ => injection E as <- <- E' end;
        destruct fs1 as [|p1 [|p2 fs1]]; cbn in E'; try discriminate; injection E' as <- <- <-; contradiction.
  - exists (fun _ _ => 0). split; [|split].
    + intros; lia.
    + intros x e d y H. cbn in H. intuition discriminate.
    + intros c sup fs x e d y H X M N. cbn in H. decompose [or] H; clear H; try discriminate; try contradiction;
        match goal with E : SClass _ _ _ = _ |- _ => injection E as <- <- <- end;
        destruct X as [X|[]]; injection X as <- <-; inversion M.
  - intros (s & R). vm_compute in R. discriminate.
Qed.
Print Assumptions C63_shared_refuted.

(** An assignment through an object is taken for one to the field of the class; Python
    creates an attribute of the object.
      class A: X = 5
      A.X = 4; o = A(); o.X = 6; assert A.X == 6 *)
Theorem C63_instance_refuted :
  exists P, verifies P /\ once P /\ separate P /\ scoped P /\ not_circular P /\
    (forall c1 s1 f1 c2 s2 f2, In (SClass c1 s1 f1) P -> In (SClass c2 s2 f2) P -> c1 = c2) /\ ~ runs_fine P.
Proof.
  exists [SClass 0 None [(0, EInt 5)]; SSet 0 0 (EInt 4); SNew 0 0; SInst 0 0 (EInt 6); SAssert (EEq (EStat 0 0) (EInt 6))].
  split; [|split; [|split; [|split; [|split; [|split]]]]].
  - split.
    + intros c x e E. unfold field_value in E. cbn in E.
      destruct c as [|c]; try discriminate; cbn in E; destruct x as [|x]; try discriminate; cbn in E; injection E as <-; reflexivity.
    + intros G F h SA GA.
      pose proof (SA 0 0 0 _ eq_refl eq_refl) as A1. cbn in A1. cbn. rewrite A1.
      split; [exact I|]. split; [reflexivity|]. intros _. unfold updz, updn. cbn.
      repeat (split; [reflexivity|]). eexists. split; [reflexivity|]. split; [discriminate|exact I].
  - split; [|split; [|split]]; try solve [cbn; repeat constructor; cbn; intuition discriminate].
    intros c sup fs H. cbn in H. decompose [or] H; clear H; try discriminate; try contradiction;
      match goal with E : SClass _ _ _ = _ |- _ => injection E as <- <- <- end; cbn; repeat constructor; cbn; intuition discriminate.
  - intros x (e & H) _. cbn in H. intuition discriminate.
  - split.
    + intros t e x T K Y. cbn in T. decompose [or] T; clear T; subst; try contradiction;
        destruct K as [K|[(y & K)|[(o & y & K)|(o & y & K)]]]; try discriminate; inversion K; subst; cbn in Y; contradiction.
    + intros c sup fs1 x e fs2 y H Y. cbn in H. decompose [or] H; clear H; try discriminate; try contradiction;
        match goal with E : SClass _ _ _ = _ |- _ => injection E as <- <- E' end;
        destruct fs1 as [|p1 [|p2 fs1]]; cbn in E'; try discriminate; injection E' as <- <- <-; contradiction.
  - exists (fun _ _ => 0). split; [|split].
    + intros; lia.
    + intros x e d y H. cbn in H. intuition discriminate.
    + intros c sup fs x e d y H X M N. cbn in H. decompose [or] H; clear H; try discriminate; try contradiction;
        match goal with E : SClass _ _ _ = _ |- _ => injection E as <- <- <- end;
        destruct X as [X|[]]; injection X as <- <-; inversion M.
  - intros c1 s1 f1 c2 s2 f2 H1 H2. cbn in H1, H2. intuition congruence.
  - intros (s & R). vm_compute in R. discriminate.
Qed.
Print Assumptions C63_instance_refuted.

(** Without [separate]: assigning a static field lets the global variable of the same name
    count as defined.
      class A: X = 5
      assert X == 3     # NameError
      X = 3 *)
Theorem C63_leak_refuted :
  exists P, verifies P /\ once P /\ no_updates P /\ scoped P /\ not_circular P /\ ~ runs_fine P.
Proof.
  exists [SClass 0 None [(0, EInt 5)]; SAssert (EEq (EName 0) (EInt 3)); SGlob 0 (EInt 3)].
  split; [|split; [|split; [|split; [|split]]]].
  - split.
    + intros c x e E. unfold field_value in E. cbn in E.
      destruct c as [|c]; try discriminate; cbn in E; destruct x as [|x]; try discriminate; cbn in E; injection E as <-; reflexivity.
    + intros G F h SA GA.
      pose proof (SA 0 0 0 _ eq_refl eq_refl) as A1. pose proof (GA 0 _ eq_refl eq_refl) as A2. cbn in A1, A2. cbn.
      split; [exact I|]. split; [reflexivity|]. intros _. rewrite A2. eexists. split; [reflexivity|]. cbn. split; [discriminate|auto].
  - split; [|split; [|split]]; try solve [cbn; repeat constructor; cbn; intuition discriminate].
    intros c sup fs H. cbn in H. decompose [or] H; clear H; try discriminate; try contradiction;
      match goal with E : SClass _ _ _ = _ |- _ => injection E as <- <- <- end; cbn; repeat constructor; cbn; intuition discriminate.
  - intros c x e H. cbn in H. intuition discriminate.
  - split.
    + intros t e x T K Y. cbn in T. decompose [or] T; clear T; subst; try contradiction;
        destruct K as [K|[(y & K)|[(o & y & K)|(o & y & K)]]]; try discriminate.
      * injection K as <-. cbn in Y. destruct Y as [<-|[]]. eexists. cbn. eauto.
      * injection K as <- <-. contradiction.
    + intros c sup fs1 x e fs2 y H Y. cbn in H. decompose [or] H; clear H; try discriminate; try contradiction;
        match goal with E : SClass _ _ _ = _ |- _ => injection E as <- <- E' end;
        destruct fs1 as [|p1 [|p2 fs1]]; cbn in E'; try discriminate; injection E' as <- <- <-; contradiction.
  - exists (fun _ _ => 0). split; [|split].
    + intros; lia.
    + intros x e d y H M. cbn in H. decompose [or] H; clear H; try discriminate; try contradiction.
      match goal with E : SGlob _ _ = _ |- _ => injection E as <- <- end. inversion M.
    + intros c sup fs x e d y H X M N. cbn in H. decompose [or] H; clear H; try discriminate; try contradiction;
        match goal with E : SClass _ _ _ = _ |- _ => injection E as <- <- <- end;
        destruct X as [X|[]]; injection X as <- <-; inversion M.
  - intros (s & R). vm_compute in R. discriminate.
Qed.
Print Assumptions C63_leak_refuted.

(** Without [scoped]: a name in a class body is the static field of the class even before
    that is assigned, where Python finds the global variable.
      X = 3
      class C:
          Y = X
          X = 5
      assert C.Y == 5    # C.Y is 3 *)
Theorem C63_scope_refuted :
  exists P, verifies P /\ once P /\ no_updates P /\ not_circular P /\ ~ runs_fine P.
Proof.
  exists [SGlob 0 (EInt 3); SClass 0 None [(1, EName 0); (0, EInt 5)]; SAssert (EEq (EStat 0 1) (EInt 5))].
  split; [|split; [|split; [|split]]].
  - split.
    + intros c x e E. unfold field_value in E. cbn in E.
      destruct c as [|c]; try discriminate; cbn in E; destruct x as [|[|x]]; try discriminate; cbn in E; injection E as <-; reflexivity.
    + intros G F h SA GA.
      pose proof (SA 0 0 0 _ eq_refl eq_refl) as A1. pose proof (SA 0 1 0 _ eq_refl eq_refl) as A2. cbn in A1, A2. cbn.
      intros _. split; [exact I|]. split; [reflexivity|]. intros _. split; [reflexivity|]. intros _.
      eexists. split; [reflexivity|]. rewrite A2, A1. cbn. split; [discriminate|exact I].
  - split; [|split; [|split]]; try solve [cbn; repeat constructor; cbn; intuition discriminate].
    intros c sup fs H. cbn in H. decompose [or] H; clear H; try discriminate; try contradiction;
      match goal with E : SClass _ _ _ = _ |- _ => injection E as <- <- <- end; cbn; repeat constructor; cbn; intuition discriminate.
  - intros c x e H. cbn in H. intuition discriminate.
  - exists (fun _ x => x). split; [|split].
    + intros; lia.
    + intros x e d y H M. cbn in H. decompose [or] H; clear H; try discriminate; try contradiction.
      match goal with E : SGlob _ _ = _ |- _ => injection E as <- <- end. inversion M.
    + intros c sup fs x e d y H X M N. cbn in H. decompose [or] H; clear H; try discriminate; try contradiction;
        match goal with E : SClass _ _ _ = _ |- _ => injection E as <- <- <- end.
      destruct X as [X|[X|[]]]; injection X as <- <-; inversion M; subst; lia.
  - intros (s & R). vm_compute in R. discriminate.
Qed.
Print Assumptions C63_scope_refuted.

(** Inherited fields have no known value: a correct program that does not verify.
      class A: X = 1
      class B(A): pass
      assert B.X == 1 *)
Theorem C63_inherited_refuted : exists P, runs_fine P /\ well_behaved P /\ ~ verifies P.
Proof.
  exists [SClass 0 None [(0, EInt 1)]; SClass 1 (Some 0) []; SAssert (EEq (EStat 1 0) (EInt 1))].
  split; [|split].
  - eexists. vm_compute. reflexivity.
  - split; [|split; [|split; [|split]]].
    + split; [|split; [|split]]; try solve [cbn; repeat constructor; cbn; intuition discriminate].
      intros c sup fs H. cbn in H. decompose [or] H; clear H; try discriminate; try contradiction;
        match goal with E : SClass _ _ _ = _ |- _ => injection E as <- <- <- end; cbn; repeat constructor; cbn; intuition discriminate.
    + apply no_updates_apart. intros c x e H. cbn in H. intuition discriminate.
    + intros x (e & H) _. cbn in H. intuition discriminate.
    + split.
      * intros t e x T K Y. cbn in T. decompose [or] T; clear T; subst; try contradiction;
          destruct K as [K|[(y & K)|[(o & y & K)|(o & y & K)]]]; try discriminate; inversion K; subst; contradiction.
      * intros c sup fs1 x e fs2 y H Y. cbn in H. decompose [or] H; clear H; try discriminate; try contradiction;
          match goal with E : SClass _ _ _ = _ |- _ => injection E as <- <- E' end;
          destruct fs1 as [|p1 [|p2 fs1]]; cbn in E'; try discriminate; injection E' as <- <- <-; contradiction.
    + exists (fun _ _ => 0). split; [|split].
      * intros; lia.
      * intros x e d y H. cbn in H. intuition discriminate.
      * intros c sup fs x e d y H X M N. cbn in H. decompose [or] H; clear H; try discriminate; try contradiction;
          match goal with E : SClass _ _ _ = _ |- _ => injection E as <- <- <- end; [|contradiction].
        destruct X as [X|[]]; injection X as <- <-; inversion M.
  - intros (_ & W). specialize (W (fun _ => 0%Z) (fun r x c => if c =? 0 then 1%Z else 2%Z) (fun _ => 0%Z)).
    cbn in W. destruct W as (_ & _ & W).
    + intros c x d e N E. pose proof (nearest_own _ _ _ _ _ N) as O. unfold own in O. unfold field_value in E.
      destruct d as [|[|d]]; cbn in O, E; try discriminate.
      destruct x as [|x]; cbn in E; [|discriminate]. injection E as <-. reflexivity.
    + intros x e E. cbn in E. discriminate.
    + destruct (W eq_refl) as (_ & z & Z1 & Z2 & _). injection Z1 as <-. apply Z2. reflexivity.
Qed.
Print Assumptions C63_inherited_refuted.
