(** Theorems about global variables. *)
From Coq Require Import List Bool Arith ZArith Lia.
From Verif Require Import GlobModel GlobSpec GlobProofs GlobProofs2 GlobProofs3 GlobProofs4.
Import ListNotations.
Local Open Scope nat_scope.

(** C62: a program that verifies never reads an undefined global variable or imports an
    undefined name, and its assertions about global variables hold, also those that
    follow from the assumption that final variables keep their only value. Proved for
    programs without from-imports of variables that change, without final variables that
    are assigned in loops, and without modules that assign m.x and read their own x. *)
Theorem C62_globals_partial : forall P, well_behaved P -> verifies P -> runs_fine P.
Proof. intros P (KA & IF & NL & NC & NR & SF) V. exact (globals_fine P KA (imports_final_ok P IF) NL SF NC NR V). Qed.
Print Assumptions C62_globals_partial.

(** Module 1: LIMIT = 10. Main: from m import LIMIT, i = 0, a loop that calls inc() until
    i reaches LIMIT, assert i == LIMIT. *)
Definition ex_limit := ERef (RName 0).
Definition ex_i := ERef (RName 1).
Definition ex_inc := {| f_mod := 0;
  f_pre := {| acc := [RName 1]; cond := ELt ex_i ex_limit |};
  f_post := {| acc := [RName 1]; cond := ELt ex_i (EAdd ex_limit (EInt 1)) |};
  f_body := SAssign (RName 1) (EAdd ex_i (EInt 1)) |}.
Definition ex_prog := {|
  mods := [ (1, SAssign (RName 0) (EInt 10));
            (0, SSeq (SFrom 1 0) (SSeq (SAssign (RName 1) (EInt 0))
                (SSeq (SWhile {| acc := [RName 1]; cond := ELt ex_i (EAdd ex_limit (EInt 1)) |} (ELt ex_i ex_limit) (SCall 7))
                      (SAssert (EEq ex_i ex_limit))))) ];
  funs := [ (7, ex_inc) ] |}.

Lemma b2z_nz : forall b, b2z b <> 0%Z -> b = true. Proof. intros [|]; [ reflexivity | intros H; now destruct H ]. Qed.
Lemma b2z_z : forall b, b2z b = 0%Z -> b = false. Proof. intros [|]; [ discriminate | reflexivity ]. Qed.

Example C62_ex_well_behaved : well_behaved ex_prog.
Proof.
  assert (IM : forall m0 m x, imports ex_prog m0 m x -> m0 = 0 /\ m = 1 /\ x = 0).
  { intros m0 m x (p & H & K). cbn in H. destruct H as [H|[H|[]]]; injection H as <- <-; cbn in K; [ destruct K |].
    destruct K as [K|[]]. injection K as <- <-. auto. }
  split; [| split; [| repeat split ] ].
  - intros m0 m x H. cbn in H. intuition congruence.
  - intros m0 m x H. apply IM in H. destruct H as (-> & -> & ->).
    split; [ intros m' K; now apply IM in K |]. split; [ intros m' K; apply IM in K; now destruct K |]. split; [ reflexivity |].
    intros m1 r H1 E. cbn in H1. destruct H1 as [H1|[H1|[H1|[]]]]; injection H1 as <- <-; discriminate.
  - intros m0 p r H K. cbn in H. destruct H as [H|[H|[H|[]]]]; injection H as <- <-; destruct K.
  - intros m0 p m x H K. cbn in H. destruct H as [H|[H|[]]]; injection H as <- <-; cbn in K; intuition discriminate.
  - exists (fun _ => 0). intros v m0 e r F V _ K. exfalso. revert V. unfold value. cbn.
    destruct (key_eqb_spec v (0, 1)) as [->|]; [ discriminate F |]. cbn.
    destruct (key_eqb v (1, 0)); [| discriminate ]. cbn. intros V. injection V as <- <-. destruct K.
  - intros f d [H|[]]. injection H as <- <-. exact Logic.I.
Qed.

Section Example62.
  Variables (I : key -> Z) (hold : key -> key).
  Hypothesis IL : I (1, 0) = 10%Z.
  Notation l := (hold (0, 1)).
  Definition ex_i1 (e : expr) := {| acc := [RName 1]; cond := e |}.
  Lemma ex_only : only [l] l = true.
  Proof. apply only_in. now left. Qed.
  Lemma ex_exhale : forall main e z st (Q : vstate -> Prop), pm st l = true ->
    veval ex_prog I hold main 0 {| hp := hp st; pm := only [l]; nm := nm st |} e = Some z -> z <> 0%Z ->
    Q {| hp := hp st; pm := upd (pm st) l false; nm := nm st |} -> exhale ex_prog I hold main 0 (ex_i1 e) st Q.
  Proof.
    intros main e z st Q Hp He Hz HQ. unfold exhale. change (locs ex_prog hold 0 (ex_i1 e)) with (Some [l]).
    cbn [take]. rewrite Hp. unfold holds_in. cbn [cond ex_i1]. rewrite He. now split.
  Qed.
  Lemma ex_inhale : forall main e z st (Q : vstate -> Prop),
    veval ex_prog I hold main 0 {| hp := hp st; pm := only [l]; nm := nm st |} e = Some z ->
    (z <> 0%Z -> Q {| hp := hp st; pm := upd (pm st) l true; nm := nm st |}) -> inhale ex_prog I hold main 0 (ex_i1 e) st Q.
  Proof.
    intros main e z st Q He HQ. unfold inhale. change (locs ex_prog hold 0 (ex_i1 e)) with (Some [l]).
    cbn [give]. destruct (pm st l); [ exact Logic.I |]. unfold holds_in. cbn [cond ex_i1]. now rewrite He.
  Qed.
  Lemma ex_read_i : forall main st, (main = true -> nm st (0, 1) = true) -> pm st l = true -> veval ex_prog I hold main 0 st ex_i = Some (hp st l).
  Proof.
    intros main st Hn Hp. cbn [veval ex_i]. change (resolve ex_prog 0 (RName 1)) with (0, 1). cbn [pykey]. change (final ex_prog (0, 1)) with false.
    rewrite Hp. destruct main; [ rewrite (Hn eq_refl) |]; reflexivity.
  Qed.
  Lemma ex_read_l : forall main st, (main = true -> nm st (0, 0) = true) -> veval ex_prog I hold main 0 st ex_limit = Some 10%Z.
  Proof.
    intros main st Hn. cbn [veval ex_limit]. change (resolve ex_prog 0 (RName 0)) with (1, 0). cbn [pykey]. change (final ex_prog (1, 0)) with true. rewrite IL.
    destruct main; [ rewrite (Hn eq_refl) |]; reflexivity.
  Qed.
  Lemma ex_lt : forall main st a b x y, veval ex_prog I hold main 0 st a = Some x -> veval ex_prog I hold main 0 st b = Some y ->
    veval ex_prog I hold main 0 st (ELt a b) = Some (b2z (x <? y)%Z).
  Proof. intros main st a b x y A B. cbn [veval]. now rewrite A, B. Qed.
  Lemma ex_le1 : forall main st, (main = true -> nm st (0, 0) = true) -> veval ex_prog I hold main 0 st (EAdd ex_limit (EInt 1)) = Some 11%Z.
  Proof. intros main st H. cbn [veval]. change (ERef (RName 0)) with ex_limit. rewrite ex_read_l; auto. Qed.

  Definition ex_le := ELt ex_i (EAdd ex_limit (EInt 1)).
  Lemma ex_cond_le : forall main st, (main = true -> nm st (0, 1) = true /\ nm st (0, 0) = true) -> pm st l = true ->
    veval ex_prog I hold main 0 st ex_le = Some (b2z (hp st l <? 11)%Z).
  Proof. intros main st H Hp. apply ex_lt; [ apply ex_read_i; auto; intros M; apply (H M) | apply ex_le1; intros M; apply (H M) ]. Qed.
  Lemma ex_cond_lt : forall main st, (main = true -> nm st (0, 1) = true /\ nm st (0, 0) = true) -> pm st l = true ->
    veval ex_prog I hold main 0 st (ELt ex_i ex_limit) = Some (b2z (hp st l <? 10)%Z).
  Proof. intros main st H Hp. apply ex_lt; [ apply ex_read_i; auto; intros M; apply (H M) | apply ex_read_l; intros M; apply (H M) ]. Qed.

  Lemma ex_function : fun_ok ex_prog I hold ex_inc.
  Proof.
    intros h. cbn [f_mod f_pre f_post f_body ex_inc]. fold (ex_i1 (ELt ex_i ex_limit)). fold ex_le. fold (ex_i1 ex_le).
    eapply ex_inhale; [ apply ex_cond_lt; [ discriminate | apply ex_only ] |]. cbn [hp nm pm].
    intros H. apply b2z_nz, Z.ltb_lt in H.
    cbn [wp]. erewrite (_ : veval _ _ _ _ _ _ (EAdd ex_i (EInt 1)) = Some (h l + 1)%Z).
    unfold assign. change (resolve ex_prog 0 (RName 1)) with (0, 1). change (final ex_prog (0, 1)) with false. cbn [pm hp nm define last_name].
    split; [ apply upd_same |].
    eapply ex_exhale; [ apply upd_same | apply ex_cond_le; [ discriminate | apply ex_only ] | | exact Logic.I ].
    cbn [hp define]. rewrite upd_same. replace (h l + 1 <? 11)%Z with true; [ discriminate | symmetry; apply Z.ltb_lt; lia ].
    Unshelve. cbn [veval]. change (ERef (RName 1)) with ex_i. rewrite ex_read_i; [ reflexivity | discriminate | apply upd_same ].
  Qed.

  Lemma ex_main : main_ok ex_prog I hold.
  Proof.
    intros h p G. change (mutable ex_prog) with [(0, 1)] in G. cbn [map give] in G. injection G as <-.
    cbn [mods ex_prog wp_mods wp].
    match goal with |- context [veval ex_prog I hold true 1 ?s (EInt 10)] => change (veval ex_prog I hold true 1 s (EInt 10)) with (Some 10%Z) end. cbv iota.
    unfold assign at 1. change (resolve ex_prog 1 (RName 0)) with (1, 0). change (final ex_prog (1, 0)) with true. intros _.
    cbn [last_name]. cbn [wp]. split; [ reflexivity |]. split; [ reflexivity |].
    match goal with |- context [veval ex_prog I hold true 0 ?s (EInt 0)] => change (veval ex_prog I hold true 0 s (EInt 0)) with (Some 0%Z) end. cbv iota.
    unfold assign. change (resolve ex_prog 0 (RName 1)) with (0, 1). change (final ex_prog (0, 1)) with false. cbn [pm hp nm define last_name].
    split; [ apply upd_same |].
    fold ex_le. fold (ex_i1 ex_le).
    eapply ex_exhale; [ apply upd_same | apply ex_cond_le; [ intros _; now split | apply ex_only ] | cbn [hp define]; rewrite upd_same; discriminate |].
    cbn [hp nm pm]. intros st' (_ & Hp & Hn & _). cbn [pm nm] in Hp, Hn.
    assert (N : nm st' (0, 1) = true /\ nm st' (0, 0) = true) by (split; apply Hn; reflexivity).
    split.
    - eapply ex_inhale; [ apply ex_cond_le; [ intros _; exact N | apply ex_only ] |]. cbn [nothing hp nm pm]. intros _.
      rewrite ex_cond_lt; [| intros _; exact N | apply upd_same ]. cbn [hp].
      intros H. split.
      + intros _ k Hk. cbn in Hk. destruct N as [N1 N2]. intuition (subst; assumption).
      + cbn [f_mod f_pre f_post ex_inc]. fold (ex_i1 (ELt ex_i ex_limit)).
        eapply ex_exhale; [ apply upd_same | apply ex_cond_lt; [ discriminate | apply ex_only ] | exact H |]. cbn [hp nm pm].
        intros h' _. fold ex_le. fold (ex_i1 ex_le).
        eapply ex_inhale; [ apply ex_cond_le; [ discriminate | apply ex_only ] |]. cbn [hp nm pm]. intros K.
        eapply ex_exhale; [ apply upd_same | apply ex_cond_le; [ intros _; exact N | apply ex_only ] | exact K | exact Logic.I ].
    - eapply ex_inhale; [ apply ex_cond_le; [ intros _; exact N | apply ex_only ] |]. intros K. cbn [hp] in K.
      rewrite ex_cond_lt; [| intros _; exact N | apply upd_same ]. cbn [hp]. intros E. injection E as E.
      apply b2z_nz, Z.ltb_lt in K. apply b2z_z, Z.ltb_ge in E.
      exists 1%Z. split; [| split; [ discriminate | exact Logic.I ] ].
      cbn [veval]. change (ERef (RName 1)) with ex_i. change (ERef (RName 0)) with ex_limit. 
      change (veval ex_prog I hold true 0 {| hp := hp st'; pm := upd (pm st') l true; nm := nm st' |} (EEq ex_i ex_limit) = Some 1%Z). cbn [veval].
      change (ERef (RName 1)) with ex_i. change (ERef (RName 0)) with ex_limit.
      rewrite ex_read_i, ex_read_l; [| intros _; apply N | intros _; apply N | apply upd_same ]. cbn [hp].
      replace (hp st' l) with 10%Z by lia. reflexivity.
  Qed.
End Example62.

Example C62_ex_verifies : verifies ex_prog.
Proof.
  intros I hold AX.
  assert (IL : I (1, 0) = 10%Z) by (apply (AX (1, 0) 1 (EInt 10)); reflexivity).
  split; [ now apply ex_main |]. intros f d [H|[]]. injection H as <- <-. now apply ex_function.
Qed.
Example C62_ex_runs : exists s, run (funs ex_prog) 60 (mods ex_prog) (fun _ => None) = Some (Done s) /\ s (0, 1) = Some 10%Z.
Proof. eexists. split; [ vm_compute; reflexivity | reflexivity ]. Qed.

(** Each of the first three conditions is needed. A for loop in a module: its target is
    written once in the text, so it is final and equal to the first and the last element.
    for x in [1, 2]: pass
    assert 0 *)
Definition for_prog := {|
  mods := [ (0, SSeq (SFor 0 [EInt 1; EInt 2] {| acc := []; cond := EInt 1 |} SSkip) (SAssert (EInt 0))) ]; funs := [] |}.
Theorem C62_for_refuted : verifies for_prog /\ ~ runs_fine for_prog.
Proof.
  split.
  - intros I hold _. split; [| intros f d [] ]. intros h p G. injection G as <-.
    cbn. intros E. split; [ reflexivity |]. split; [ discriminate |]. intros st' _. split.
    + intros k y Hk Hy. intros _. rewrite E in Hy.
      destruct k as [|[|k]]; cbn in Hk.
      * injection Hk as <-. cbn. intros E2. rewrite E in E2. discriminate.
      * injection Hk as <-. discriminate.
      * destruct k; discriminate.
    + rewrite E. discriminate.
  - intros R. apply (R 5 (upd (upd (fun _ => None) (0, 0) (Some 1%Z)) (0, 0) (Some 2%Z))). reflexivity.
Qed.
Print Assumptions C62_for_refuted.

(** An imported variable is taken for the variable of the other module. m: X = 5, main:
    from m import X, X = 6, assert m.X == 6. *)
Definition from_prog := {|
  mods := [ (1, SAssign (RName 0) (EInt 5));
            (0, SSeq (SFrom 1 0) (SSeq (SAssign (RName 0) (EInt 6)) (SAssert (EEq (ERef (RAttr 1 0)) (EInt 6))))) ]; funs := [] |}.
Theorem C62_import_refuted : verifies from_prog /\ ~ runs_fine from_prog.
Proof.
  split.
  - intros I hold _. split; [| intros f d [] ]. intros h p G.
    change (mutable from_prog) with [(1, 0)] in G. cbn [map give] in G. injection G as <-.
    cbn -[upd key_eqb]. unfold assign. change (resolve from_prog 1 (RName 0)) with (1, 0). change (resolve from_prog 0 (RName 0)) with (1, 0). change (final from_prog (1, 0)) with false. cbn [pm hp nm define last_name].
    split; [ apply upd_same |]. split; [ reflexivity |]. split; [ reflexivity |]. split; [ apply upd_same |].
    exists 1%Z. split; [| split; [ discriminate | exact Logic.I ] ].
    change (final from_prog (resolve from_prog 0 (RAttr 1 0))) with false. change (resolve from_prog 0 (RAttr 1 0)) with (1, 0).
    rewrite !upd_same. reflexivity.
  - intros R. eapply (R 9). vm_compute. reflexivity.
Qed.
Print Assumptions C62_import_refuted.

(** An assignment to m.X makes the variable X of the current module count as defined. m: X = 1,
    main: m.X = 7, assert X == 3, X = 3. *)
Definition attr_prog := {|
  mods := [ (1, SAssign (RName 0) (EInt 1));
            (0, SSeq (SAssign (RAttr 1 0) (EInt 7)) (SSeq (SAssert (EEq (ERef (RName 0)) (EInt 3))) (SAssign (RName 0) (EInt 3)))) ]; funs := [] |}.
Theorem C62_defined_refuted : verifies attr_prog /\ ~ runs_fine attr_prog.
Proof.
  split.
  - intros I hold AX. assert (IL : I (0, 0) = 3%Z) by (apply (AX (0, 0) 0 (EInt 3)); reflexivity).
    split; [| intros f d [] ]. intros h p G.
    change (mutable attr_prog) with [(1, 0)] in G. cbn [map give] in G. injection G as <-.
    cbn -[upd key_eqb]. unfold assign. change (resolve attr_prog 1 (RName 0)) with (1, 0). change (resolve attr_prog 0 (RAttr 1 0)) with (1, 0). change (resolve attr_prog 0 (RName 0)) with (0, 0).
    change (final attr_prog (1, 0)) with false. change (final attr_prog (0, 0)) with true. cbn [pm hp nm define last_name].
    split; [ apply upd_same |]. split; [ apply upd_same |].
    exists 1%Z. split; [| split; [ discriminate | intros _; exact Logic.I ] ].
    rewrite upd_same. cbn. rewrite IL. reflexivity.
  - intros R. eapply (R 9). vm_compute. reflexivity.
Qed.
Print Assumptions C62_defined_refuted.
