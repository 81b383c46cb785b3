From Coq Require Import List Bool Arith ZArith Lia.
From Verif Require Import GhostModel GhostSpec.
Import ListNotations.

(* Induction principles. *)
Section ExprInd.
  Variable R : expr -> Prop.
  Hypothesis Hc : forall a v, R (EConst a v).
  Hypothesis Hv : forall a x, R (EVar a x).
  Hypothesis Ha : forall a e f, R e -> R (EAttr a e f).
  Hypothesis Ho : forall a o es, Forall R es -> R (EOp a o es).
  Hypothesis Ht : forall a e1 e2, R e1 -> R e2 -> R (ETuple a e1 e2).
  Hypothesis Hcall : forall a f es, Forall R es -> R (ECall a f es).
  Hypothesis Hb : forall a o es, Forall R es -> R (EBuiltin a o es).
  Fixpoint expr_ind2 (e : expr) : R e :=
    let all := fix all (es : list expr) : Forall R es :=
      match es with
      | [] => Forall_nil R
      | x :: r => Forall_cons x (expr_ind2 x) (all r)
      end in
    match e with
    | EConst a v => Hc a v
    | EVar a x => Hv a x
    | EAttr a e f => Ha a e f (expr_ind2 e)
    | EOp a o es => Ho a o es (all es)
    | ETuple a e1 e2 => Ht a e1 e2 (expr_ind2 e1) (expr_ind2 e2)
    | ECall a f es => Hcall a f es (all es)
    | EBuiltin a o es => Hb a o es (all es)
    end.
End ExprInd.

Section StmtInd.
  Variable R : stmt -> Prop.
  Hypothesis H1 : forall fl t e, R (SAssign fl t e).
  Hypothesis H2 : forall fl x o e, R (SAug fl x o e).
  Hypothesis H3 : forall fl e, R (SExpr fl e).
  Hypothesis H4 : forall fl t b o, Forall R b -> Forall R o -> R (SIf fl t b o).
  Hypothesis H5 : forall fl t b, Forall R b -> R (SWhile fl t b).
  Hypothesis H6 : forall fl e, R (SReturn fl e).
  Hypothesis H7 : forall fl, R (SBreak fl).
  Hypothesis H8 : forall fl, R (SContinue fl).
  Hypothesis H9 : forall fl, R (SPass fl).
  Hypothesis H10 : forall fl e cs, Forall (fun c => Forall R (snd c)) cs -> R (SMatch fl e cs).
  Fixpoint stmt_ind2 (s : stmt) : R s :=
    let all := fix all (ss : list stmt) : Forall R ss :=
      match ss with
      | [] => Forall_nil R
      | x :: r => Forall_cons x (stmt_ind2 x) (all r)
      end in
    match s with
    | SAssign fl t e => H1 fl t e
    | SAug fl x o e => H2 fl x o e
    | SExpr fl e => H3 fl e
    | SIf fl t b o => H4 fl t b o (all b) (all o)
    | SWhile fl t b => H5 fl t b (all b)
    | SReturn fl e => H6 fl e
    | SBreak fl => H7 fl
    | SContinue fl => H8 fl
    | SPass fl => H9 fl
    | SMatch fl e cs =>
        H10 fl e cs ((fix go (cs : list (Z * list stmt)) : Forall (fun c => Forall R (snd c)) cs :=
                        match cs with
                        | [] => Forall_nil _
                        | c :: r => Forall_cons c (all (snd c)) (go r)
                        end) cs)
    end.
End StmtInd.

(* The relations. *)
Lemma same_refl : forall P w, same_world P w w.
Proof. intros P w; split; auto. Qed.
Lemma same_sym : forall P w w', same_world P w w' -> same_world P w' w.
Proof. intros P w w' [A B]; split; [auto|]; intros r f H; symmetry; auto. Qed.
Lemma same_trans : forall P a b c, same_world P a b -> same_world P b c -> same_world P a c.
Proof.
  intros P a b c [A B] [C D]; split; [congruence|].
  intros r f H; rewrite (B r f H); auto.
Qed.

Definition same_locals (gv : nat -> bool) (l l' : locals) : Prop :=
  forall x, gv x = false -> l x = l' x.
Lemma locals_refl : forall gv l, same_locals gv l l.
Proof. intros gv l x H; auto. Qed.
Lemma locals_sym : forall gv l l', same_locals gv l l' -> same_locals gv l' l.
Proof. intros gv l l' A x H; symmetry; auto. Qed.
Lemma locals_trans : forall gv a b c, same_locals gv a b -> same_locals gv b c -> same_locals gv a c.
Proof. intros gv a b c A B x H; rewrite (A x H); auto. Qed.
Lemma locals_upd_ghost : forall gv l x v, gv x = true -> same_locals gv l (upd l x v).
Proof.
  intros gv l x v G y H; unfold upd.
  destruct (Nat.eqb_spec y x); [subst; congruence | reflexivity].
Qed.
Lemma locals_upd : forall gv l l' x v, same_locals gv l l' -> same_locals gv (upd l x v) (upd l' x v).
Proof. intros gv l l' x v A y H; unfold upd; destruct (Nat.eqb y x); auto. Qed.

Lemma set_field_ghost : forall P w r f v, p_gfield P f = true -> same_world P w (set_field w r f v).
Proof.
  intros P w r f v G; split; [reflexivity|].
  intros r' f' H; cbn [w_heap set_field].
  destruct (Nat.eqb_spec f' f); [subst; congruence|].
  rewrite andb_false_r; reflexivity.
Qed.
Lemma set_field_same : forall P w w' r f v,
  same_world P w w' -> same_world P (set_field w r f v) (set_field w' r f v).
Proof.
  intros P w w' r f v [A B]; split; [exact A|].
  intros r' f' H; cbn [w_heap set_field].
  destruct (Nat.eqb r' r && Nat.eqb f' f); auto.
Qed.

(* Effect-free expressions. *)
Section Effects.
  Variable P : program.
  Variable call : nat -> list val -> world -> option (world * val).
  Hypothesis Heff : forall f vs w w1 v,
    effect_free P f = true -> call f vs w = Some (w1, v) -> same_world P w w1.

  Lemma evals_same : forall l es,
    Forall (fun e => forall w w1 v, eval P call l e w = Some (w1, v) -> same_world P w w1) es ->
    forall w w1 vs, evals (eval P call l) es w = Some (w1, vs) -> same_world P w w1.
  Proof.
    intros l es A; induction A as [|e es He _ IH]; intros w w1 vs E; cbn [evals] in E.
    - inversion E; subst; apply same_refl.
    - destruct (eval P call l e w) as [[w2 v]|] eqn:E1; [|discriminate].
      destruct (evals (eval P call l) es w2) as [[w3 vs']|] eqn:E2; [|discriminate].
      inversion E; subst.
      eapply same_trans; [eapply He; eauto | eapply IH; eauto].
  Qed.

  Lemma chain_eval : forall l e w w1 v, chain e = true -> eval P call l e w = Some (w1, v) -> w1 = w.
  Proof.
    intros l e; induction e using expr_ind2; intros w w1 v' C E; cbn [chain] in C; try discriminate;
      cbn [eval] in E.
    - destruct (l x); inversion E; auto.
    - destruct (eval P call l e w) as [[w2 v2]|] eqn:E1; [|discriminate].
      destruct v2; try discriminate.
      destruct (w_heap w2 r f); inversion E; subst; eauto.
  Qed.

  Lemma core_effect : forall gv fg l e nested w w1 v,
    core_expr P gv fg nested e = true -> eval P call l e w = Some (w1, v) -> same_world P w w1.
  Proof.
    intros gv fg l e; induction e using expr_ind2; intros nested w w1 v' C E;
      cbn [core_expr] in C; cbn [eval] in E.
    - inversion E; subst; apply same_refl.
    - destruct (l x); inversion E; subst; apply same_refl.
    - destruct (eval P call l e w) as [[w2 v2]|] eqn:E1; [|discriminate].
      destruct v2; try discriminate.
      destruct (w_heap w2 r f); inversion E; subst.
      assert (K : chain e = true).
      { unfold access in C; destruct (fg || p_gfield P f); [exact C|].
        revert C; clear; induction e using expr_ind2; cbn [regular_chain chain]; try discriminate; auto.
        intros C; apply andb_prop in C; destruct C; auto. }
      rewrite (chain_eval _ _ _ _ _ K E1); apply same_refl.
    - destruct (evals (eval P call l) es w) as [[w2 vs]|] eqn:E1; [|discriminate].
      destruct (p_op P o vs); inversion E; subst.
      eapply evals_same; [|exact E1].
      rewrite forallb_forall in C; rewrite Forall_forall in H |- *; eauto.
    - destruct (eval P call l e1 w) as [[w2 v1]|] eqn:E1; [|discriminate].
      destruct (eval P call l e2 w2) as [[w3 v2]|] eqn:E2; [|discriminate].
      inversion E; subst; apply andb_prop in C; destruct C.
      eapply same_trans; [eapply IHe1; eauto | eapply IHe2; eauto].
    - destruct (evals (eval P call l) es w) as [[w2 vs]|] eqn:E1; [|discriminate].
      apply andb_prop in C; destruct C as [C C2]; apply andb_prop in C; destruct C as [C C1].
      eapply same_trans; [|eapply Heff; eauto].
      eapply evals_same; [|exact E1].
      rewrite forallb_forall in C2; rewrite Forall_forall in H |- *; eauto.
    - destruct (evals (eval P call l) es w) as [[w2 vs]|] eqn:E1; [|discriminate].
      destruct (p_op P o vs); inversion E; subst.
      eapply evals_same; [|exact E1].
      rewrite forallb_forall in C; rewrite Forall_forall in H |- *; eauto.
  Qed.

  Lemma pure_effect : forall l e w w1 v,
    pure_expr P e = true -> eval P call l e w = Some (w1, v) -> same_world P w w1.
  Proof.
    intros l e; induction e using expr_ind2; intros w w1 v' C E;
      cbn [pure_expr] in C; cbn [eval] in E.
    - inversion E; subst; apply same_refl.
    - destruct (l x); inversion E; subst; apply same_refl.
    - destruct (eval P call l e w) as [[w2 v2]|] eqn:E1; [|discriminate].
      destruct v2; try discriminate.
      destruct (w_heap w2 r f); inversion E; subst; eauto.
    - destruct (evals (eval P call l) es w) as [[w2 vs]|] eqn:E1; [|discriminate].
      destruct (p_op P o vs); inversion E; subst.
      eapply evals_same; [|exact E1].
      rewrite forallb_forall in C; rewrite Forall_forall in H |- *; eauto.
    - destruct (eval P call l e1 w) as [[w2 v1]|] eqn:E1; [|discriminate].
      destruct (eval P call l e2 w2) as [[w3 v2]|] eqn:E2; [|discriminate].
      inversion E; subst; apply andb_prop in C; destruct C.
      eapply same_trans; [eapply IHe1; eauto | eapply IHe2; eauto].
    - destruct (evals (eval P call l) es w) as [[w2 vs]|] eqn:E1; [|discriminate].
      apply andb_prop in C; destruct C as [C C2].
      eapply same_trans; [|eapply Heff; eauto; unfold effect_free; rewrite C; reflexivity].
      eapply evals_same; [|exact E1].
      rewrite forallb_forall in C2; rewrite Forall_forall in H |- *; eauto.
    - destruct (evals (eval P call l) es w) as [[w2 vs]|] eqn:E1; [|discriminate].
      destruct (p_op P o vs); inversion E; subst.
      eapply evals_same; [|exact E1].
      rewrite forallb_forall in C; rewrite Forall_forall in H |- *; eauto.
  Qed.

  (* Lists of statements and loops that keep the world. *)
  Definition keeps (ok : outcome -> locals -> locals -> Prop) (x : locals -> world -> option (outcome * locals * world)) : Prop :=
    forall l w o l1 w1, x l w = Some (o, l1, w1) -> same_world P w w1 /\ ok o l l1.

  Lemma exec_all_keeps : forall (ok : outcome -> locals -> locals -> Prop) ex ss,
    (forall l, ok ONormal l l) ->
    (forall o a b c, ok ONormal a b -> ok o b c -> ok o a c) ->
    Forall (fun s => keeps ok (ex s)) ss -> keeps ok (exec_all ex ss).
  Proof.
    intros ok ex ss R T A; induction A as [|s ss Hs _ IH]; intros l w o l1 w1 E; cbn [exec_all] in E.
    - inversion E; subst; split; [apply same_refl | apply R].
    - destruct (ex s l w) as [[[o2 l2] w2]|] eqn:E1; [|discriminate].
      destruct (Hs _ _ _ _ _ E1) as [S1 K1].
      destruct o2; try (inversion E; subst; split; assumption).
      destruct (IH _ _ _ _ _ E) as [S2 K2].
      split; [eapply same_trans; eauto | eapply T; eauto].
  Qed.

  Lemma loop_keeps : forall (ok : outcome -> locals -> locals -> Prop) b t,
    (forall l, ok ONormal l l) ->
    (forall o a b c, ok ONormal a b -> ok o b c -> ok o a c) ->
    (forall a b, ok OBreak a b -> ok ONormal a b) ->
    (forall a b, ok OContinue a b -> ok ONormal a b) ->
    keeps ok b ->
    (forall l w w1 v, eval P call l t w = Some (w1, v) -> same_world P w w1) ->
    forall k, keeps ok (loop P call k t b).
  Proof.
    intros ok b t R T B C Hb Ht k; induction k as [|k IH]; intros l w o l1 w1 E; cbn [loop] in E;
      [discriminate|].
    destruct (eval P call l t w) as [[w2 v]|] eqn:E1; [|discriminate].
    pose proof (Ht _ _ _ _ E1) as S1.
    destruct (truth v); [|inversion E; subst; split; auto].
    destruct (b l w2) as [[[o2 l2] w3]|] eqn:E2; [|discriminate].
    destruct (Hb _ _ _ _ _ E2) as [S2 K2].
    destruct o2.
    - destruct (IH _ _ _ _ _ E) as [S3 K3].
      split; [eapply same_trans; [exact S1|]; eapply same_trans; eauto | eapply T; eauto].
    - inversion E; subst; split; [eapply same_trans; eauto | auto].
    - destruct (IH _ _ _ _ _ E) as [S3 K3].
      split; [eapply same_trans; [exact S1|]; eapply same_trans; eauto | eapply T; eauto].
    - inversion E; subst; split; [eapply same_trans; eauto | auto].
  Qed.

  Lemma pure_stmt_keeps : forall k s, pure_stmt P s = true -> keeps (fun _ _ _ => True) (exec P call k s).
  Proof.
    intros k s; induction s using stmt_ind2; intros C l w o1 l1 w1 E;
      cbn [pure_stmt] in C; cbn [exec] in E.
    - apply andb_prop in C; destruct C as [C C1].
      destruct (eval P call l e w) as [[w2 v]|] eqn:E1; [|discriminate].
      pose proof (pure_effect _ _ _ _ _ C E1) as S1.
      destruct t as [x|r f|lst xs]; cbn [assign not_attr] in *; [inversion E; subst; auto | discriminate |].
      destruct xs as [|x [|y [|z xs]]]; try discriminate.
      destruct v; try discriminate; inversion E; subst; auto.
    - destruct (l x); [|discriminate].
      destruct (eval P call l e w) as [[w2 v2]|] eqn:E1; [|discriminate].
      pose proof (pure_effect _ _ _ _ _ C E1) as S1.
      destruct (p_op P o [v; v2]); inversion E; subst; auto.
    - destruct (eval P call l e w) as [[w2 v]|] eqn:E1; [|discriminate].
      pose proof (pure_effect _ _ _ _ _ C E1) as S1; inversion E; subst; auto.
    - apply andb_prop in C; destruct C as [C C2]; apply andb_prop in C; destruct C as [C C1].
      destruct (eval P call l t w) as [[w2 v]|] eqn:E1; [|discriminate].
      pose proof (pure_effect _ _ _ _ _ C E1) as S1.
      rewrite forallb_forall in C1, C2; rewrite Forall_forall in H, H0.
      destruct (truth v);
        (eapply (exec_all_keeps (fun _ _ _ => True)) in E; [| auto | auto | apply Forall_forall; auto]);
        destruct E as [S2 _]; split; auto; eapply same_trans; eauto.
    - apply andb_prop in C; destruct C as [C C1].
      rewrite forallb_forall in C1; rewrite Forall_forall in H.
      eapply (loop_keeps (fun _ _ _ => True)) in E; auto.
      + apply exec_all_keeps; auto; apply Forall_forall; auto.
      + intros; eapply pure_effect; eauto.
    - destruct e as [e|].
      + destruct (eval P call l e w) as [[w2 v]|] eqn:E1; [|discriminate].
        pose proof (pure_effect _ _ _ _ _ C E1) as S1; inversion E; subst; auto.
      + inversion E; subst; split; [apply same_refl | auto].
    - inversion E; subst; split; [apply same_refl | auto].
    - inversion E; subst; split; [apply same_refl | auto].
    - inversion E; subst; split; [apply same_refl | auto].
    - apply andb_prop in C; destruct C as [C C1].
      destruct (eval P call l e w) as [[w2 v]|] eqn:E1; [|discriminate].
      destruct v as [|z| |]; try discriminate.
      pose proof (pure_effect _ _ _ _ _ C E1) as S1.
      revert C1 E; induction H as [|[z' b] cs Hb _ IH]; intros C1 E.
      + inversion E; subst; auto.
      + apply andb_prop in C1; destruct C1 as [C1 C2].
        destruct (Z.eqb z z'); [|auto].
        rewrite forallb_forall in C1; cbn [snd] in Hb; rewrite Forall_forall in Hb.
        eapply (exec_all_keeps (fun _ _ _ => True)) in E; [| auto | auto | apply Forall_forall; auto].
        destruct E as [S2 _]; split; auto; eapply same_trans; eauto.
  Qed.
End Effects.

(* Ghost code. *)
Section GhostCode.
  Variable P : program.
  Variable call : nat -> list val -> world -> option (world * val).
  Hypothesis Heff : forall f vs w w1 v,
    effect_free P f = true -> call f vs w = Some (w1, v) -> same_world P w w1.
  Variable gv : nat -> bool.
  Variable fghost : bool.
  Variable fret : rinfo.

  Lemma gcheck_call : forall item a f args r,
    (item = true \/ a = None) -> gcheck P gv item (ECall a f args) = Some r ->
    effect_free P f = true.
  Proof.
    intros item a f args r H E; cbn [gcheck ann] in E; unfold effect_free.
    assert (K : (if item then None else a) = None) by (destruct H as [->| ->]; [|destruct item]; reflexivity).
    rewrite K in E.
    destruct (f_pure (p_fun P f)); [reflexivity|].
    destruct (f_ghost (p_fun P f)); [reflexivity | discriminate].
  Qed.

  Lemma gcheck_core : forall item e r,
    core_rhs P gv fghost e = true -> (item = true \/ ann e = None) ->
    gcheck P gv item e = Some r -> core_expr P gv fghost false e = true.
  Proof.
    intros item e r C A E; unfold core_rhs in C.
    destruct (core_expr P gv fghost false e) eqn:K; [reflexivity|].
    cbn [orb] in C.
    destruct e; try discriminate.
    apply gcheck_call in E; [|exact A].
    cbn [core_expr] in K; rewrite E, C in K; discriminate.
  Qed.

  (* Nothing regular changes; the code ends normally, or returns in a ghost function. *)
  Definition ghost_ok (o : outcome) (l l1 : locals) : Prop :=
    same_locals gv l l1 /\ (o = ONormal \/ (fghost = true /\ exists v, o = OReturn v)).
  Lemma ghost_ok_refl : forall l, ghost_ok ONormal l l.
  Proof. intros l; split; [apply locals_refl | left; reflexivity]. Qed.
  Lemma ghost_ok_trans : forall o a b c, ghost_ok ONormal a b -> ghost_ok o b c -> ghost_ok o a c.
  Proof. intros o a b c [A _] [B C]; split; [eapply locals_trans; eauto | exact C]. Qed.

  Lemma plain_ann : forall e, plain e = true -> ann e = None.
  Proof. intros e; destruct e; cbn [plain ann]; destruct a; congruence. Qed.

  Lemma visit_all_forall : forall h ctx ss ss',
    visit_all h ctx ss = Some ss' -> Forall2 (fun s s' => h ctx s = Some s') ss ss'.
  Proof.
    intros h ctx ss; induction ss as [|s ss IH]; intros ss' E; cbn [visit_all] in E.
    - inversion E; constructor.
    - destruct (h ctx s) eqn:E1; [|discriminate].
      destruct (visit_all h ctx ss) eqn:E2; [|discriminate].
      inversion E; subst; constructor; auto.
  Qed.

  Lemma assign_ghost : forall l t v w l1 w1,
    target_ghost P gv t = true -> core_target P gv fghost t = true ->
    assign P call l t v w = Some (l1, w1) -> same_world P w w1 /\ same_locals gv l l1.
  Proof.
    intros l t v w l1 w1 G C E; destruct t as [x|r f|lst xs]; cbn [assign target_ghost core_target] in *.
    - inversion E; subst; split; [apply same_refl | apply locals_upd_ghost; exact G].
    - destruct (eval P call l r w) as [[w2 v2]|] eqn:E1; [|discriminate].
      destruct v2; try discriminate; inversion E; subst.
      assert (K : chain r = true) by (unfold access in C; rewrite G, orb_true_r in C; exact C).
      rewrite (chain_eval _ _ _ _ _ _ _ K E1).
      split; [apply set_field_ghost; exact G | apply locals_refl].
    - destruct xs as [|x [|y [|z xs]]]; try discriminate.
      destruct v; try discriminate; inversion E; subst.
      cbn [forallb] in G; apply andb_prop in G; destruct G as [G1 G2];
        apply andb_prop in G2; destruct G2 as [G2 _].
      split; [apply same_refl|].
      eapply locals_trans; [apply locals_upd_ghost; exact G1 | apply locals_upd_ghost; exact G2].
  Qed.

  Lemma seq_ok_ghost : forall xs v, seq_ok gv true xs v = true -> forallb gv xs = true.
  Proof.
    intros xs v H; destruct xs as [|x [|y [|z xs]]]; try discriminate.
    cbn [seq_ok] in H; unfold assignable in H; cbn [forallb].
    apply andb_prop in H; destruct H as [H1 H2].
    apply andb_prop in H1; destruct H1 as [_ H1]; apply andb_prop in H2; destruct H2 as [_ H2].
    cbn [negb orb] in H1, H2; rewrite H1, H2; reflexivity.
  Qed.

  Lemma visit_ghost : forall k s s',
    plain_stmt s = true -> core_stmt P gv fghost fret s = true ->
    visit P gv fghost fret true s = Some s' -> keeps P ghost_ok (exec P call k s).
  Proof.
    intros k s; induction s using stmt_ind2; intros s' Pl C V l w o1 l1 w1 E;
      cbn [plain_stmt] in Pl; cbn [core_stmt] in C; cbn [visit] in V; cbn [exec] in E;
      try discriminate.
    - apply andb_prop in C; destruct C as [C C1]; apply andb_prop in Pl; destruct Pl as [Pl _].
      cbn [orb check_expr] in V.
      destruct (gcheck P gv false e) as [[b e']|] eqn:Gc; [|discriminate].
      destruct (eval P call l e w) as [[w2 v]|] eqn:E1; [|discriminate].
      assert (K : core_expr P gv fghost false e = true)
        by exact (gcheck_core false e (b, e') C (or_intror (plain_ann _ Pl)) Gc).
      pose proof (core_effect _ _ Heff _ _ _ _ _ _ _ _ K E1) as S1.
      destruct (assign P call l t v w2) as [[l3 w3]|] eqn:E2; [|discriminate].
      assert (G : target_ghost P gv t = true).
      { destruct t as [x|r f|lst xs]; cbn [target_ghost] in *.
        - destruct (assignable true true b (gv x)) eqn:As; [|discriminate].
          unfold assignable in As; apply andb_prop in As; destruct As as [_ As]; exact As.
        - destruct (assignable true true b (p_gfield P f)) eqn:As; [|discriminate].
          unfold assignable in As; apply andb_prop in As; destruct As as [_ As]; exact As.
        - destruct (seq_ok gv true xs (unpack_values P e' b)) eqn:As; [|discriminate].
          eapply seq_ok_ghost; eauto. }
      destruct (assign_ghost _ _ _ _ _ _ G C1 E2) as [S2 L2].
      inversion E; subst; split; [eapply same_trans; eauto | split; auto].
    - cbn [orb check_expr] in V.
      destruct (gcheck P gv false e) as [[b e']|] eqn:Gc; [|discriminate].
      destruct (assignable true true b (gv x)) eqn:As; [|discriminate].
      unfold assignable in As; apply andb_prop in As; destruct As as [_ As]; cbn [negb orb] in As.
      rewrite As in C; apply andb_prop in C; destruct C as [C _].
      destruct (l x) as [vx|]; [|discriminate].
      destruct (eval P call l e w) as [[w2 v]|] eqn:E1; [|discriminate].
      pose proof (core_effect _ _ Heff _ _ _ _ _ _ _ _ C E1) as S1.
      destruct (p_op P o [vx; v]); inversion E; subst.
      split; [exact S1 | split; [apply locals_upd_ghost; exact As | auto]].
    - apply andb_prop in C; destruct C as [C _].
      cbn [check_expr] in V.
      destruct (gcheck P gv false e) as [[b e']|] eqn:Gc; [|discriminate].
      destruct (eval P call l e w) as [[w2 v]|] eqn:E1; [|discriminate].
      assert (K : core_expr P gv fghost false e = true)
        by exact (gcheck_core false e (b, e') C (or_intror (plain_ann _ Pl)) Gc).
      pose proof (core_effect _ _ Heff _ _ _ _ _ _ _ _ K E1) as S1.
      inversion E; subst; split; [exact S1 | apply ghost_ok_refl].
    - apply andb_prop in C; destruct C as [C C2]; apply andb_prop in C; destruct C as [C C1].
      apply andb_prop in Pl; destruct Pl as [Pl P2]; apply andb_prop in Pl; destruct Pl as [Pl P1].
      destruct (check_expr P gv true t) as [[g t1]|]; [|discriminate].
      destruct (if g then check_for_call P gv t1 else Some (false, t1)) as [[g' t']|]; [|discriminate].
      cbn [orb] in V.
      destruct (visit_all (visit P gv fghost fret) true b) as [b'|] eqn:Vb; [|discriminate].
      destruct (visit_all (visit P gv fghost fret) true o) as [o'|] eqn:Vo; [|discriminate].
      apply visit_all_forall in Vb; apply visit_all_forall in Vo.
      destruct (eval P call l t w) as [[w2 v]|] eqn:E1; [|discriminate].
      pose proof (core_effect _ _ Heff _ _ _ _ _ _ _ _ C E1) as S1.
      assert (A : forall ss ss', Forall2 (fun s s' => visit P gv fghost fret true s = Some s') ss ss' ->
                forallb plain_stmt ss = true -> forallb (core_stmt P gv fghost fret) ss = true ->
                Forall (fun s => forall s', plain_stmt s = true -> core_stmt P gv fghost fret s = true ->
                   visit P gv fghost fret true s = Some s' -> keeps P ghost_ok (exec P call k s)) ss ->
                Forall (fun s => keeps P ghost_ok (exec P call k s)) ss).
      { clear; intros ss ss' F; induction F as [|s s' ss ss' V _ IH]; intros Pl C A; constructor;
          inversion A; subst; cbn [forallb] in Pl, C; apply andb_prop in Pl; destruct Pl;
          apply andb_prop in C; destruct C; eauto. }
      destruct (truth v);
        (eapply (exec_all_keeps P ghost_ok) in E;
          [| apply ghost_ok_refl | apply ghost_ok_trans | eapply A; eauto]);
        destruct E as [S2 K2]; split; auto; eapply same_trans; eauto.
    - apply andb_prop in C; destruct C as [C C1].
      apply andb_prop in Pl; destruct Pl as [Pl P1].
      destruct (check_expr P gv true t) as [[g t1]|]; [|discriminate].
      destruct (if g then check_for_call P gv t1 else Some (false, t1)) as [[g' t']|]; [|discriminate].
      cbn [orb] in V.
      destruct (visit_all (visit P gv fghost fret) true b) as [b'|] eqn:Vb; [|discriminate].
      apply visit_all_forall in Vb.
      assert (A : Forall (fun s => keeps P ghost_ok (exec P call k s)) b).
      { clear E V; revert P1 C1 H; induction Vb as [|s s2 ss ss' V _ IH]; intros P1 C1 A; constructor;
          inversion A; subst; cbn [forallb] in P1, C1; apply andb_prop in P1; destruct P1;
          apply andb_prop in C1; destruct C1; eauto. }
      eapply (loop_keeps P call ghost_ok) in E; auto.
      + apply ghost_ok_refl.
      + apply ghost_ok_trans.
      + intros a c [_ [K|[_ [v K]]]]; discriminate.
      + intros a c [_ [K|[_ [v K]]]]; discriminate.
      + apply exec_all_keeps; [apply ghost_ok_refl | apply ghost_ok_trans | exact A].
      + intros; eapply core_effect; eauto.
    - destruct fghost eqn:Fg; [|discriminate].
      destruct e as [e|].
      + destruct (gcheck P gv true e) as [[b e']|] eqn:Gc; [|discriminate].
        apply andb_prop in C; destruct C as [C _].
        destruct (eval P call l e w) as [[w2 v]|] eqn:E1; [|discriminate].
        assert (K : core_expr P gv true false e = true).
        { unfold core_rhs in C.
          destruct (core_expr P gv true false e) eqn:K; [reflexivity|].
          cbn [orb] in C; destruct e; try discriminate.
          apply gcheck_call in Gc; [|left; reflexivity].
          cbn [core_expr] in K; rewrite Gc, C in K; discriminate. }
        pose proof (core_effect _ _ Heff _ _ _ _ _ _ _ _ K E1) as S1.
        inversion E; subst; split; [exact S1 | split; [apply locals_refl | right; eauto]].
      + inversion E; subst; split; [apply same_refl | split; [apply locals_refl | right; eauto]].
    - inversion E; subst; split; [apply same_refl | apply ghost_ok_refl].
  Qed.
End GhostCode.

(* Facts about the attributes. *)
Section Flags.
  Variable P : program.
  Variable gv : nat -> bool.

  Lemma gcheck_flag : forall e b e', ann e = None -> gcheck P gv false e = Some (b, e') ->
    flag_ghost e' = b /\ (b = false -> is_call e' = false) /\ (b = true -> flag_contains e' = true) /\
    is_call e' = is_call e.
  Proof.
    intros e b e' A E; destruct e; cbn [ann] in A; subst; cbn [gcheck ann] in E.
    - inversion E; subst; cbn; auto.
    - inversion E; subst; cbn; auto.
    - inversion E; subst; cbn; auto.
    - destruct (mapM (gcheck P gv false) es) as [[bs es']|]; [|discriminate].
      inversion E; subst; unfold flag_ghost, flag_contains; cbn [ann is_ghost contains_ghost mk].
      repeat split; auto; intros ->; reflexivity.
    - destruct (gcheck P gv false e1) as [[b1 e1']|]; [|discriminate].
      destruct (gcheck P gv false e2) as [[b2 e2']|]; [|discriminate].
      inversion E; subst; unfold flag_ghost, flag_contains; cbn [ann is_ghost contains_ghost mk].
      repeat split; auto; intros ->; reflexivity.
    - destruct (negb (f_ghost (p_fun P f)) && negb (f_pure (p_fun P f))); [discriminate|].
      destruct (mapM (gcheck P gv true) args) as [[bs es']|]; [|discriminate].
      inversion E; subst; cbn; auto; repeat split; auto; discriminate.
    - destruct (mapM (gcheck P gv false) args) as [[bs es']|]; [|discriminate].
      inversion E; subst; cbn; repeat split; auto; discriminate.
  Qed.

  Lemma ghost_func_flag : forall f args b r c, ghost_func P gv f args = Some (b, r, c) ->
    b = true /\ flag_ghost c = true /\ flag_contains c = true /\ is_call c = true /\
    flag_pure c = f_pure (p_fun P f).
  Proof.
    intros f args b r c E; unfold ghost_func in E.
    destruct (mapM (gcheck P gv true) args) as [[bs es']|]; [|discriminate].
    inversion E; subst; cbn; auto.
  Qed.

  Lemma rcheck_flag : forall e b e', ann e = None -> rcheck P gv e = Some (b, e') ->
    (flag_ghost e' = true -> b = true /\ flag_contains e' = true) /\
    (b = true -> flag_ghost e' = true \/ ghost_result P e = true) /\
    is_call e' = is_call e.
  Proof.
    intros e b e' A E; destruct e; cbn [ann] in A; subst; cbn [rcheck ann] in E.
    - inversion E; subst; cbn; repeat split; intros; discriminate.
    - inversion E; subst; cbn; auto.
    - inversion E; subst; cbn; auto.
    - destruct (mapM (rcheck P gv) es) as [[bs es']|]; [|discriminate].
      inversion E; subst; unfold flag_ghost, flag_contains; cbn [ann is_ghost contains_ghost mk].
      repeat split; auto; destruct (any bs); auto; discriminate.
    - destruct (rcheck P gv e1) as [[b1 e1']|]; [|discriminate].
      destruct (rcheck P gv e2) as [[b2 e2']|]; [|discriminate].
      inversion E; subst; unfold flag_ghost, flag_contains; cbn [ann is_ghost contains_ghost mk].
      repeat split; auto; destruct (b1 || b2); auto; discriminate.
    - cbn [ghost_result].
      destruct (f_ghost (p_fun P f)) eqn:Fg.
      + destruct (ghost_func P gv f args) as [[[b1 r1] c1]|] eqn:G; [|discriminate].
        inversion E; subst; apply ghost_func_flag in G; destruct G as (G1 & G2 & G3 & G4 & _).
        repeat split; auto.
      + destruct (check_args P gv (rcheck P gv) (f_gvar (p_fun P f)) (f_params (p_fun P f)) args)
          as [[[[c args']|] all]|]; [| |discriminate].
        * inversion E; subst; cbn; repeat split; auto; discriminate.
        * destruct (f_pure (p_fun P f)); [|discriminate].
          destruct (ghost_func P gv f all) as [[[b1 r1] c1]|] eqn:G; [|discriminate].
          inversion E; subst; apply ghost_func_flag in G; destruct G as (G1 & G2 & G3 & G4 & _).
          repeat split; auto.
    - destruct (mapM (rcheck P gv) args) as [[bs es']|]; [|discriminate].
      inversion E; subst; unfold flag_ghost, flag_contains; cbn [ann is_ghost contains_ghost mkp].
      repeat split; auto.
  Qed.

  Lemma rcheck_regular : forall e b e', ann e = None -> rcheck P gv e = Some (b, e') ->
    b = false -> flag_ghost e' = false.
  Proof.
    intros e b e' A E B; destruct (rcheck_flag _ _ _ A E) as [H _].
    destruct (flag_ghost e'); auto; destruct H; congruence.
  Qed.

  Lemma extract_whole : forall e, flag_ghost e = false -> flag_contains e = false -> extract e = Some e.
  Proof. intros e A B; destruct e; cbn [extract]; rewrite A, B; reflexivity. Qed.

  Lemma extract_ghost : forall e, flag_ghost e = true -> extract e = None.
  Proof. intros e A; destruct e; cbn [extract]; rewrite A; reflexivity. Qed.

  Lemma convert_ghost : forall b e, flag_ghost e = b -> (b = false -> is_call e = false) ->
    flag_ghost (convert b true e) = true.
  Proof.
    intros b e A C; unfold convert; destruct b; cbn [negb andb]; [exact A|].
    rewrite (C eq_refl); cbn [andb negb]; destruct e; reflexivity.
  Qed.
End Flags.

(* Regular expressions behave the same after extraction. *)
Section Regular.
  Variables P P2 : program.
  Variables call call2 : nat -> list val -> world -> option (world * val).
  Hypothesis Hop : p_op P2 = p_op P.
  Hypothesis Heff : forall f vs w w1 v,
    effect_free P f = true -> call f vs w = Some (w1, v) -> same_world P w w1.
  Hypothesis Hreg : forall f vs w w1 v w',
    f_ghost (p_fun P f) = false -> call f vs w = Some (w1, v) -> same_world P w w' ->
    exists w1' v', call2 f (regular_args (f_gvar (p_fun P f)) (f_params (p_fun P f)) vs) w' = Some (w1', v')
      /\ same_world P w1 w1' /\ same_result (f_ret (p_fun P f)) v v'.
  Variable gv : nat -> bool.

  Lemma chain_same : forall l l' e w w' w1 v,
    regular_chain P gv e = true -> same_locals gv l l' -> same_world P w w' ->
    eval P call l e w = Some (w1, v) ->
    w1 = w /\ eval P2 call2 l' e w' = Some (w', v).
  Proof.
    intros l l' e; induction e using expr_ind2; intros w w' w1 v' C L W E;
      cbn [regular_chain] in C; try discriminate; cbn [eval] in *.
    - apply negb_true_iff in C; rewrite <- (L x C); destruct (l x); inversion E; auto.
    - apply andb_prop in C; destruct C as [C1 C2]; apply negb_true_iff in C1.
      destruct (eval P call l e w) as [[w2 v2]|] eqn:E1; [|discriminate].
      destruct (IHe _ _ _ _ C2 L W E1) as [-> K].
      destruct v2; try discriminate; rewrite K.
      destruct W as [_ W]; rewrite <- (W r f C1).
      destruct (w_heap w r f); inversion E; auto.
  Qed.

  Definition transfer (e : expr) : Prop :=
    forall nested b e' l l' w w' w1 v,
      plain e = true -> core_expr P gv false nested e = true -> rcheck P gv e = Some (b, e') ->
      flag_ghost e' = false -> same_locals gv l l' -> same_world P w w' ->
      eval P call l e w = Some (w1, v) ->
      (nested = true -> flag_contains e' = false) /\
      exists e2 w1' v', extract e' = Some e2 /\ eval P2 call2 l' e2 w' = Some (w1', v') /\
        same_world P w1 w1' /\ (b = false -> v' = v).

  Definition keep (x : expr) : list expr := match extract x with Some y => [y] | None => [] end.

  (* The arguments of a call. *)
  Lemma args_transfer : forall args gp params c args' all l l' w w' w1 vs,
    Forall transfer args -> forallb plain args = true ->
    forallb (core_expr P gv false true) args = true ->
    check_args P gv (rcheck P gv) gp params args = Some (Some (c, args'), all) ->
    same_locals gv l l' -> same_world P w w' ->
    evals (eval P call l) args w = Some (w1, vs) ->
    exists w1', evals (eval P2 call2 l') (flat_map keep args') w' = Some (w1', regular_args gp params vs) /\
      same_world P w1 w1' /\ (c = false -> flat_map keep args' = args').
  Proof.
    intros args gp; induction args as [|e args IH];
      intros params c args' all l l' w w' w1 vs T Pl C E L W Ev;
      destruct params as [|x params]; cbn [check_args] in E; try discriminate.
    - inversion E; subst; cbn [evals] in Ev; inversion Ev; subst.
      exists w'; cbn; auto.
    - inversion T as [|a b Te Ta]; subst.
      cbn [forallb] in Pl, C; apply andb_prop in Pl; destruct Pl as [Pe Pa].
      apply andb_prop in C; destruct C as [Ce Ca].
      cbn [evals] in Ev.
      destruct (eval P call l e w) as [[w2 v]|] eqn:E1; [|discriminate].
      destruct (evals (eval P call l) args w2) as [[w3 vs']|] eqn:E2; [|discriminate].
      inversion Ev; subst; clear Ev.
      cbn [regular_args].
      destruct (gp x).
      + destruct (gcheck P gv false e) as [[b e']|] eqn:G; [|discriminate].
        destruct (check_args P gv (rcheck P gv) gp params args) as [[[[c2 l2]|] all2]|] eqn:E3;
          try discriminate.
        inversion E; subst; clear E.
        destruct (gcheck_flag _ _ _ _ _ (plain_ann _ Pe) G) as (F1 & F2 & _ & _).
        assert (S1 : same_world P w2 w').
        { eapply same_trans; [|exact W]; apply same_sym; eapply core_effect; eauto. }
        destruct (IH _ _ _ _ _ _ _ _ _ _ Ta Pa Ca E3 L S1 E2) as (w1' & K1 & K2 & K3).
        exists w1'; cbn [flat_map]; unfold keep at 1.
        rewrite extract_ghost by (apply convert_ghost; auto).
        cbn [app]; split; [exact K1|]; split; [exact K2 | discriminate].
      + destruct (rcheck P gv e) as [[b e']|] eqn:G; [|discriminate].
        destruct b; [discriminate|].
        destruct (check_args P gv (rcheck P gv) gp params args) as [[[[c2 l2]|] all2]|] eqn:E3;
          try discriminate.
        inversion E; subst; clear E.
        pose proof (rcheck_regular _ _ _ _ _ (plain_ann _ Pe) G eq_refl) as F.
        destruct (Te _ _ _ _ _ _ _ _ _ Pe Ce G F L W E1) as (N & e2 & w2' & v' & X & Y & Z & V).
        rewrite (V eq_refl) in Y.
        destruct (IH _ _ _ _ _ _ _ _ _ _ Ta Pa Ca E3 L Z E2) as (w1' & K1 & K2 & K3).
        exists w1'; cbn [flat_map]; unfold keep at 1 3; rewrite X; cbn [app evals].
        rewrite Y, K1; split; [reflexivity|]; split; [exact K2|].
        rewrite (extract_whole _ F (N eq_refl)) in X; inversion X; subst.
        intros Hc; rewrite (K3 Hc); reflexivity.
  Qed.

  (* Operands: all regular. *)
  Lemma ops_transfer : forall nested es bs es' l l' w w' w1 vs,
    Forall transfer es -> forallb plain es = true ->
    forallb (core_expr P gv false nested) es = true ->
    mapM (rcheck P gv) es = Some (bs, es') -> any bs = false ->
    same_locals gv l l' -> same_world P w w' ->
    evals (eval P call l) es w = Some (w1, vs) ->
    (nested = true -> existsb flag_contains es' = false) /\
    exists w1', evals (eval P2 call2 l') (map (fun x => match extract x with Some y => y | None => x end) es') w'
        = Some (w1', vs) /\
      same_world P w1 w1' /\
      (existsb flag_contains es' = false ->
       map (fun x => match extract x with Some y => y | None => x end) es' = es').
  Proof.
    intros nested es; induction es as [|e es IH]; intros bs es' l l' w w' w1 vs T Pl C E A L W Ev;
      cbn [mapM] in E.
    - inversion E; subst; cbn [evals] in Ev; inversion Ev; subst.
      split; [auto|]; exists w'; cbn; auto.
    - inversion T as [|a b Te Ta]; subst.
      cbn [forallb] in Pl, C; apply andb_prop in Pl; destruct Pl as [Pe Pa].
      apply andb_prop in C; destruct C as [Ce Ca].
      cbn [evals] in Ev.
      destruct (eval P call l e w) as [[w2 v]|] eqn:E1; [|discriminate].
      destruct (evals (eval P call l) es w2) as [[w3 vs']|] eqn:E2; [|discriminate].
      inversion Ev; subst; clear Ev.
      destruct (rcheck P gv e) as [[b e']|] eqn:G; [|discriminate].
      destruct (mapM (rcheck P gv) es) as [[bs2 es2]|] eqn:E3; [|discriminate].
      inversion E; subst; clear E.
      cbn [any existsb] in A; apply orb_false_iff in A; destruct A as [-> A].
      pose proof (rcheck_regular _ _ _ _ _ (plain_ann _ Pe) G eq_refl) as F.
      destruct (Te _ _ _ _ _ _ _ _ _ Pe Ce G F L W E1) as (N & e2 & w2' & v' & X & Y & Z & V).
      rewrite (V eq_refl) in Y.
      destruct (IH _ _ _ _ _ _ _ _ Ta Pa Ca eq_refl A L Z E2) as (M & w1' & K1 & K2 & K3).
      split.
      + intros Hn; cbn [existsb]; rewrite (N Hn), (M Hn); reflexivity.
      + exists w1'; cbn [map existsb]; rewrite X; cbn [evals]; rewrite Y, K1; split; [reflexivity|]; split; [exact K2|].
        intros H; apply orb_false_iff in H; destruct H as [H1 H2].
        rewrite (K3 H2).
        rewrite (extract_whole _ F H1) in X; inversion X; subst; reflexivity.
  Qed.

  (* Calls of regular functions with effect-free arguments. *)
  Lemma call_transfer : forall a f args b e' l l' w w' w1 v,
    Forall transfer args -> plain (ECall a f args) = true ->
    forallb (core_expr P gv false true) args = true ->
    rcheck P gv (ECall a f args) = Some (b, e') -> flag_ghost e' = false ->
    same_locals gv l l' -> same_world P w w' ->
    eval P call l (ECall a f args) w = Some (w1, v) ->
    f_ghost (p_fun P f) = false /\ b = ret_ghost (f_ret (p_fun P f)) /\
    (no_ghost_params P f = true -> flag_contains e' = false) /\
    exists e2 w1' v', extract e' = Some e2 /\ eval P2 call2 l' e2 w' = Some (w1', v') /\
      same_world P w1 w1' /\ same_result (f_ret (p_fun P f)) v v'.
  Proof.
    intros a f args b e' l l' w w' w1 v T Pl C E F L W Ev.
    pose proof (plain_ann _ Pl) as A; cbn [ann] in A; subst a.
    cbn [plain ann] in Pl; cbn [rcheck ann] in E; cbn [eval] in Ev.
    destruct (f_ghost (p_fun P f)) eqn:Fg.
    { destruct (ghost_func P gv f args) as [[[b1 r1] c1]|] eqn:G; [|discriminate].
      inversion E; subst; apply ghost_func_flag in G; destruct G as (_ & G2 & _); congruence. }
    destruct (check_args P gv (rcheck P gv) (f_gvar (p_fun P f)) (f_params (p_fun P f)) args)
      as [[[[c args']|] all]|] eqn:Ca; [| |discriminate].
    2:{ destruct (f_pure (p_fun P f)); [|discriminate].
        destruct (ghost_func P gv f all) as [[[b1 r1] c1]|] eqn:G; [|discriminate].
        inversion E; subst; apply ghost_func_flag in G; destruct G as (_ & G2 & _); congruence. }
    inversion E; subst; clear E.
    destruct (evals (eval P call l) args w) as [[w2 vs]|] eqn:E1; [|discriminate].
    destruct (args_transfer _ _ _ _ _ _ _ _ _ _ _ _ T Pl C Ca L W E1) as (w2' & K1 & K2 & K3).
    destruct (Hreg _ _ _ _ _ _ Fg Ev K2) as (w1' & v' & X & Y & Z).
    split; [reflexivity|]; split; [reflexivity|]; split.
    - intros N; unfold flag_contains; cbn [ann contains_ghost mkp].
      revert N Ca; unfold no_ghost_params; clear.
      generalize (f_params (p_fun P f)) as params; revert c args' all.
      induction args as [|e args IH]; intros c args' all [|x params] N E; cbn [check_args] in E;
        try discriminate.
      + inversion E; reflexivity.
      + cbn [forallb] in N; apply andb_prop in N; destruct N as [N1 N2].
        apply negb_true_iff in N1; rewrite N1 in E.
        destruct (rcheck P gv e) as [[[|] e']|]; try discriminate.
        destruct (check_args P gv (rcheck P gv) (f_gvar (p_fun P f)) params args)
          as [[[[c2 l2]|] all2]|] eqn:E3; try discriminate.
        inversion E; subst; eauto.
    - destruct c.
      + cbn [extract flag_ghost flag_contains ann is_ghost contains_ghost mkp negb].
        eexists; exists w1', v'; split; [reflexivity|].
        fold keep; cbn [eval]; rewrite K1; auto.
      + rewrite extract_whole by reflexivity.
        eexists; exists w1', v'; split; [reflexivity|].
        cbn [eval]; rewrite <- (K3 eq_refl), K1; auto.
  Qed.

  Lemma expr_transfer : forall e, transfer e.
  Proof.
    intros e; induction e using expr_ind2; intros nested b e' l l' w w' w1 v' Pl C E F L W Ev;
      pose proof (plain_ann _ Pl) as A; cbn [ann] in A; subst a;
      cbn [core_expr] in C.
    - cbn [rcheck ann] in E; inversion E; subst; cbn [eval] in Ev; inversion Ev; subst.
      split; [reflexivity|]; eexists; exists w', v'; split; [reflexivity|]; cbn [eval]; auto.
    - cbn [rcheck ann] in E; inversion E; subst; unfold flag_ghost in F; cbn [ann is_ghost mk] in F.
      cbn [eval] in Ev; rewrite F in *.
      split; [reflexivity|]; eexists; exists w', v'; split; [reflexivity|]; cbn [eval].
      rewrite <- (L x F); destruct (l x); inversion Ev; subst; auto.
    - cbn [rcheck ann] in E; inversion E; subst; unfold flag_ghost in F; cbn [ann is_ghost mk] in F.
      rewrite F in *; unfold access in C; cbn [orb] in C; rewrite F in C.
      split; [reflexivity|]; eexists; exists w', v'; split; [reflexivity|].
      assert (C2 : regular_chain P gv (EAttr None e f) = true)
        by (cbn [regular_chain]; rewrite F, C; reflexivity).
      destruct (chain_same _ _ _ _ _ _ _ C2 L W Ev) as [-> K].
      split; [exact K | auto].
    - cbn [rcheck ann] in E; cbn [plain ann] in Pl; cbn [eval] in Ev.
      destruct (mapM (rcheck P gv) es) as [[bs es']|] eqn:M; [|discriminate].
      destruct (evals (eval P call l) es w) as [[w2 vs]|] eqn:E1; [|discriminate].
      inversion E; subst; clear E.
      unfold flag_ghost in F; cbn [ann is_ghost mk] in F.
      destruct (ops_transfer _ _ _ _ _ _ _ _ _ _ H Pl C M F L W E1) as (N & w1' & K1 & K2 & K3).
      rewrite F; cbn [orb].
      destruct (p_op P o vs) as [vr|] eqn:Op; inversion Ev; subst.
      split; [exact N|].
      destruct (existsb flag_contains es') eqn:Cn.
      + cbn [extract flag_ghost flag_contains ann is_ghost contains_ghost mk negb].
        eexists; exists w1', v'; split; [reflexivity|]; cbn [eval].
        rewrite K1, Hop, Op; auto.
      + rewrite extract_whole by reflexivity.
        eexists; exists w1', v'; split; [reflexivity|]; cbn [eval].
        rewrite <- (K3 eq_refl), K1, Hop, Op; auto.
    - cbn [rcheck ann] in E; cbn [plain ann] in Pl; cbn [eval] in Ev.
      destruct (rcheck P gv e1) as [[b1 e1']|] eqn:G1; [|discriminate].
      destruct (rcheck P gv e2) as [[b2 e2']|] eqn:G2; [|discriminate].
      inversion E; subst; clear E.
      unfold flag_ghost in F; cbn [ann is_ghost mk] in F.
      apply orb_false_iff in F; destruct F as [-> ->].
      apply andb_prop in Pl; destruct Pl as [P1 P2']; apply andb_prop in C; destruct C as [C1 C2].
      destruct (eval P call l e1 w) as [[w2 v1]|] eqn:E1; [|discriminate].
      destruct (eval P call l e2 w2) as [[w3 v2]|] eqn:E2; [|discriminate].
      inversion Ev; subst; clear Ev.
      pose proof (rcheck_regular _ _ _ _ _ (plain_ann _ P1) G1 eq_refl) as F1.
      pose proof (rcheck_regular _ _ _ _ _ (plain_ann _ P2') G2 eq_refl) as F2.
      destruct (IHe1 _ _ _ _ _ _ _ _ _ P1 C1 G1 F1 L W E1) as (N1 & x1 & w2' & v1' & X1 & Y1 & Z1 & V1).
      destruct (IHe2 _ _ _ _ _ _ _ _ _ P2' C2 G2 F2 L Z1 E2) as (N2 & x2 & w3' & v2' & X2 & Y2 & Z2 & V2).
      rewrite (V1 eq_refl) in Y1; rewrite (V2 eq_refl) in Y2.
      cbn [orb].
      split; [intros Hn; unfold flag_contains at 1; cbn [ann contains_ghost mk]; rewrite (N1 Hn), (N2 Hn); reflexivity|].
      destruct (flag_contains e1' || flag_contains e2') eqn:Cn.
      + cbn [extract flag_ghost flag_contains ann is_ghost contains_ghost mk negb].
        rewrite X1, X2.
        eexists; exists w3', (VPair v1 v2); split; [reflexivity|]; cbn [eval].
        rewrite Y1, Y2; auto.
      + apply orb_false_iff in Cn; destruct Cn as [Cn1 Cn2].
        rewrite (extract_whole _ F1 Cn1) in X1; rewrite (extract_whole _ F2 Cn2) in X2.
        inversion X1; inversion X2; subst.
        rewrite extract_whole by reflexivity.
        eexists; exists w3', (VPair v1 v2); split; [reflexivity|]; cbn [eval].
        rewrite Y1, Y2; auto.
    - apply andb_prop in C; destruct C as [C C2]; apply andb_prop in C; destruct C as [C0 C1].
      destruct (call_transfer _ _ _ _ _ _ _ _ _ _ _ H Pl C2 E F L W Ev)
        as (Fg & B & N & e2 & w1' & v1 & X & Y & Z & R).
      split.
      + intros ->; cbn [negb orb] in C1; auto.
      + exists e2, w1', v1; split; [exact X|]; split; [exact Y|]; split; [exact Z|].
        intros Hb; rewrite Hb in B; destruct (f_ret (p_fun P f)); try discriminate; exact R.
    - cbn [rcheck ann] in E; cbn [plain ann] in Pl; cbn [eval] in Ev.
      destruct (mapM (rcheck P gv) es) as [[bs es']|] eqn:M; [|discriminate].
      destruct (evals (eval P call l) es w) as [[w2 vs]|] eqn:E1; [|discriminate].
      inversion E; subst; clear E.
      unfold flag_ghost in F; cbn [ann is_ghost mkp] in F.
      destruct (ops_transfer _ _ _ _ _ _ _ _ _ _ H Pl C M F L W E1) as (N & w1' & K1 & K2 & K3).
      rewrite F.
      destruct (p_op P o vs) as [vr|] eqn:Op; inversion Ev; subst.
      split; [reflexivity|].
      rewrite extract_whole by reflexivity.
      eexists; exists w1', v'; split; [reflexivity|]; cbn [eval].
      rewrite <- (K3 (N eq_refl)), K1, Hop, Op; auto.
  Qed.
End Regular.

(* Statements of regular functions. *)
Section Statements.
  Variables P Q P2 : program.
  Variables call call2 : nat -> list val -> world -> option (world * val).
  Hypothesis Hop : p_op P2 = p_op P.
  Hypothesis Hgf : p_gfield Q = p_gfield P.
  Hypothesis Heff : forall f vs w w1 v,
    effect_free P f = true -> call f vs w = Some (w1, v) -> same_world P w w1.
  Hypothesis Hreg : forall f vs w w1 v w',
    f_ghost (p_fun P f) = false -> call f vs w = Some (w1, v) -> same_world P w w' ->
    exists w1' v', call2 f (regular_args (f_gvar (p_fun P f)) (f_params (p_fun P f)) vs) w' = Some (w1', v')
      /\ same_world P w1 w1' /\ same_result (f_ret (p_fun P f)) v v'.
  Variable gv : nat -> bool.
  Variable fret : rinfo.

  Lemma rcheck_call_core : forall a f args b e',
    a = None -> forallb (core_expr P gv false true) args = true ->
    rcheck P gv (ECall a f args) = Some (b, e') ->
    (flag_ghost e' = true -> core_expr P gv false false (ECall a f args) = true) /\
    flag_pure e' = f_pure (p_fun P f).
  Proof.
    intros a f args b e' -> C E; cbn [rcheck ann] in E; cbn [core_expr negb orb].
    rewrite C, !andb_true_r; unfold effect_free.
    destruct (f_ghost (p_fun P f)) eqn:Fg.
    - rewrite orb_true_r; split; [auto|].
      destruct (ghost_func P gv f args) as [[[b1 r1] c1]|] eqn:G; [|discriminate].
      inversion E; subst; apply ghost_func_flag in G; tauto.
    - destruct (check_args P gv (rcheck P gv) (f_gvar (p_fun P f)) (f_params (p_fun P f)) args)
        as [[[[c args']|] all]|] eqn:Ca; [| |discriminate].
      + inversion E; subst; split; [discriminate | reflexivity].
      + destruct (f_pure (p_fun P f)) eqn:Fp; [|discriminate].
        destruct (ghost_func P gv f all) as [[[b1 r1] c1]|] eqn:G; [|discriminate].
        inversion E; subst; apply ghost_func_flag in G; rewrite Fp in G; tauto.
  Qed.

  Lemma convert_cases : forall b tg e,
    convert b tg e = e \/
    (flag_ghost (convert b tg e) = true /\ flag_contains (convert b tg e) = true /\ b = false /\ tg = true /\
     (is_call e = true -> flag_pure e = true)).
  Proof.
    intros b tg e; unfold convert.
    destruct b; [left; reflexivity|]; destruct tg; [|left; reflexivity]; cbn [negb andb].
    destruct (is_call e) eqn:Ic; cbn [andb negb].
    - destruct (flag_pure e) eqn:Fp; cbn [negb]; [right|left; reflexivity].
      destruct e; cbn; auto.
    - right; destruct e; cbn; repeat split; auto; discriminate.
  Qed.

  Lemma rhs_ghost : forall e b tg e',
    plain e = true -> core_rhs P gv false e = true -> rcheck P gv e = Some (b, e') ->
    flag_ghost (convert b tg e') = true -> core_expr P gv false false e = true.
  Proof.
    intros e b tg e' Pl C E F; unfold core_rhs in C.
    destruct (core_expr P gv false false e) eqn:K; [reflexivity|]; cbn [orb] in C.
    destruct e; try discriminate.
    destruct (rcheck_call_core _ _ _ _ _ (plain_ann _ Pl) C E) as [H1 H2].
    destruct (convert_cases b tg e') as [Cv|(_ & _ & _ & _ & Cv)].
    - rewrite Cv in F; rewrite <- (H1 F); exact (eq_sym K).
    - destruct (rcheck_flag _ _ _ _ _ (plain_ann _ Pl) E) as (_ & _ & Ic).
      cbn [is_call] in Ic; specialize (Cv Ic); rewrite H2 in Cv.
      cbn [core_expr negb orb] in K; unfold effect_free in K; rewrite Cv, C in K; discriminate.
  Qed.

  Lemma rhs_transfer : forall e b e' l l' w w' w1 v,
    plain e = true -> core_rhs P gv false e = true -> rcheck P gv e = Some (b, e') ->
    flag_ghost e' = false -> same_locals gv l l' -> same_world P w w' ->
    eval P call l e w = Some (w1, v) ->
    exists e2 w1' v', extract e' = Some e2 /\ eval P2 call2 l' e2 w' = Some (w1', v') /\
      same_world P w1 w1' /\ (b = false -> v' = v) /\
      (forall a f args, e = ECall a f args -> same_result (f_ret (p_fun P f)) v v').
  Proof.
    intros e b e' l l' w w' w1 v Pl C E F L W Ev.
    assert (Call : forall a f args, e = ECall a f args -> forallb (core_expr P gv false true) args = true ->
      exists e2 w1' v', extract e' = Some e2 /\ eval P2 call2 l' e2 w' = Some (w1', v') /\
      same_world P w1 w1' /\ (b = false -> v' = v) /\
      (forall a f args, e = ECall a f args -> same_result (f_ret (p_fun P f)) v v')).
    { intros a f args -> Ca.
      assert (T : Forall (transfer P P2 call call2 gv) args).
      { apply Forall_forall; intros x _; apply expr_transfer; auto. }
      destruct (call_transfer _ _ _ _ Heff Hreg _ _ _ _ _ _ _ _ _ _ _ _ T Pl Ca E F L W Ev)
        as (Fg & B & N & e2 & w1' & v1 & X & Y & Z & R).
      exists e2, w1', v1; split; [exact X|]; split; [exact Y|]; split; [exact Z|]; split.
      - intros Hb; rewrite Hb in B; destruct (f_ret (p_fun P f)); try discriminate; exact R.
      - intros a' f' args' Eq; inversion Eq; subst; exact R. }
    unfold core_rhs in C; apply orb_prop in C; destruct C as [C|C].
    - destruct e as [a0 v0|a0 x0|a0 r0 f0|a0 o0 es0|a0 x1 x2|a0 f0 args0|a0 o0 es0].
      6:{ cbn [core_expr] in C; apply andb_prop in C; destruct C as [_ C]; eauto. }
      all: destruct (expr_transfer _ _ _ _ Hop Heff Hreg gv _ _ _ _ _ _ _ _ _ _ Pl C E F L W Ev)
             as (_ & e2 & w1' & v' & X & Y & Z & V);
           exists e2, w1', v'; split; [exact X|]; split; [exact Y|]; split; [exact Z|];
           split; [exact V | intros; discriminate].
    - destruct e; try discriminate; eauto.
  Qed.

  Definition orel (o o' : outcome) : Prop :=
    match o, o' with
    | ONormal, ONormal | OBreak, OBreak | OContinue, OContinue => True
    | OReturn v, OReturn v' => same_result fret v v'
    | _, _ => False
    end.
  Definition rel3 (x : outcome * locals * world) (y : option (outcome * locals * world)) : Prop :=
    match x with
    | (o, l, w) => exists o' l' w', y = Some (o', l', w') /\ orel o o' /\ same_locals gv l l' /\ same_world P w w'
    end.

  Definition stransfer (k : nat) (s : stmt) : Prop :=
    forall s' l l' w w' o l1 w1,
      plain_stmt s = true -> core_stmt P gv false fret s = true ->
      visit P gv false fret false s = Some s' ->
      same_locals gv l l' -> same_world P w w' ->
      exec P call k s l w = Some (o, l1, w1) ->
      match extract_stmt Q gv s' with
      | None => o = ONormal /\ same_locals gv l1 l' /\ same_world P w1 w'
      | Some s2 => rel3 (o, l1, w1) (exec P2 call2 k s2 l' w')
      end.

  Lemma extract_stmt_ghost : forall s, fst (sflags s) = true -> extract_stmt Q gv s = None.
  Proof. intros s H; destruct s; cbn [extract_stmt]; rewrite H; reflexivity. Qed.
  Lemma extract_stmt_whole : forall s, fst (sflags s) = false -> snd (sflags s) = false ->
    extract_stmt Q gv s = Some s.
  Proof. intros s A B; destruct s; cbn [extract_stmt]; rewrite A, B; reflexivity. Qed.

  (* A removed statement contains ghost code. *)
  Lemma visit_flags : forall s s', plain_stmt s = true -> core_stmt P gv false fret s = true ->
    visit P gv false fret false s = Some s' ->
    fst (sflags s') = true -> snd (sflags s') = true.
  Proof.
    intros s s' Pl C V F; destruct s; cbn [visit] in V; cbn [orb] in V.
    - destruct (check_expr P gv (target_ghost P gv t && negb (is_call e)) e) as [[b e']|]; [|discriminate].
      assert (K : exists g e2, s' = SAssign (g, g || flag_contains e2 || target_contains P gv t) t e2).
      { destruct t;
          [destruct (assignable (target_ghost P gv (TName x) && negb (is_call e)) true b
                       (target_ghost P gv (TName x)))
          |destruct (assignable (target_ghost P gv (TAttr e0 f) && negb (is_call e)) true b
                       (target_ghost P gv (TAttr e0 f)))
          |destruct (seq_ok gv (target_ghost P gv (TSeq lst xs) && negb (is_call e)) xs (unpack_values P e' b))];
          inversion V; eauto. }
      destruct K as (g & e2 & ->); cbn [sflags fst snd] in *; rewrite F; reflexivity.
    - destruct (check_expr P gv (gv x && negb (is_call e)) e) as [[b e']|]; [|discriminate].
      destruct (assignable (gv x && negb (is_call e)) true b (gv x)); inversion V; subst.
      cbn [sflags fst snd] in *; rewrite F; reflexivity.
    - cbn [check_expr] in V; destruct (rcheck P gv e) as [[b e']|] eqn:E; [|discriminate].
      destruct b; [|inversion V; subst; discriminate].
      cbn [plain_stmt] in Pl; cbn [core_stmt] in C; apply andb_prop in C; destruct C as [_ C].
      destruct (rcheck_flag _ _ _ _ _ (plain_ann _ Pl) E) as (R1 & R2 & _).
      apply negb_true_iff in C.
      destruct (R2 eq_refl) as [R|R]; [|congruence].
      destruct (check_for_call P gv e') as [[b2 e2]|] eqn:K; [|discriminate].
      inversion V; subst; cbn [sflags snd].
      destruct (R1 R) as [_ R3].
      revert K R3; clear; destruct e'; cbn [check_for_call]; intros K R3.
      + inversion K; subst; exact R3.
      + inversion K; subst; exact R3.
      + destruct (gcheck P gv true e') as [[? ?]|]; inversion K; subst; exact R3.
      + destruct (mapM (gcheck P gv true) es) as [[? ?]|]; inversion K; subst; exact R3.
      + destruct (gcheck P gv true e'1) as [[? ?]|]; [|discriminate].
        destruct (gcheck P gv true e'2) as [[? ?]|]; inversion K; subst; exact R3.
      + destruct (mapM (gcheck P gv true) args) as [[? ?]|]; inversion K; subst; exact R3.
      + destruct (mapM (gcheck P gv true) args) as [[? ?]|]; inversion K; subst; exact R3.
    - destruct (check_expr P gv false t) as [[g t1]|]; [|discriminate].
      destruct (if g then check_for_call P gv t1 else Some (false, t1)) as [[g' t']|]; [|discriminate].
      destruct (visit_all (visit P gv false fret) g b) as [b'|]; [|discriminate].
      destruct (visit_all (visit P gv false fret) g o) as [o'|]; inversion V; subst.
      cbn [sflags fst snd] in *; rewrite F; reflexivity.
    - destruct (check_expr P gv false t) as [[g t1]|]; [|discriminate].
      destruct (if g then check_for_call P gv t1 else Some (false, t1)) as [[g' t']|]; [|discriminate].
      destruct (visit_all (visit P gv false fret) g b) as [b'|]; inversion V; subst.
      cbn [sflags fst snd] in *; rewrite F; reflexivity.
    - exfalso; revert F; unfold visit_return in V.
      destruct e as [e|]; [|inversion V; subst; discriminate].
      destruct fret.
      + destruct (rcheck P gv e) as [[b e']|]; [|discriminate].
        destruct (assignable false true b (ret_ghost RReg)); inversion V; subst; discriminate.
      + destruct (rcheck P gv e) as [[b e']|]; [|discriminate].
        destruct (assignable false true b (ret_ghost RGhost)); inversion V; subst; discriminate.
      + destruct e; try discriminate.
        * destruct (rcheck P gv e1) as [[b1 e1']|]; [|discriminate].
          destruct (assignable false true b1 false); [|discriminate].
          destruct (rcheck P gv e2) as [[b2 e2']|]; [|discriminate].
          destruct (assignable false true b2 true); inversion V; subst; discriminate.
        * destruct (rcheck P gv (ECall a f args)) as [[b1 e1']|]; [|discriminate].
          destruct (negb (flag_ghost e1') && match f_ret (p_fun P f) with RMixed => true | _ => false end);
            inversion V; subst; discriminate.
    - inversion V; subst; discriminate.
    - inversion V; subst; discriminate.
    - inversion V; subst; discriminate.
    - discriminate.
  Qed.

  Lemma extract_list_whole : forall ss ss',
    forallb plain_stmt ss = true -> forallb (core_stmt P gv false fret) ss = true ->
    visit_all (visit P gv false fret) false ss = Some ss' -> snd_flags ss' = false ->
    extract_list (extract_stmt Q gv) ss' = ss'.
  Proof.
    intros ss; induction ss as [|s ss IH]; intros ss' Pl C V F; cbn [visit_all] in V.
    - inversion V; reflexivity.
    - cbn [forallb] in Pl, C; apply andb_prop in Pl; destruct Pl; apply andb_prop in C; destruct C.
      destruct (visit P gv false fret false s) as [s'|] eqn:V1; [|discriminate].
      destruct (visit_all (visit P gv false fret) false ss) as [ss2|] eqn:V2; inversion V; subst.
      unfold snd_flags in F; cbn [existsb] in F; apply orb_false_iff in F; destruct F as [F1 F2].
      cbn [extract_list].
      rewrite extract_stmt_whole; [|destruct (fst (sflags s')) eqn:F3; [|reflexivity] | exact F1].
      + rewrite IH; auto.
      + rewrite (visit_flags _ _ H H1 V1 F3) in F1; discriminate.
  Qed.

  Lemma list_transfer : forall k ss ss' l l' w w' x,
    Forall (stransfer k) ss -> forallb plain_stmt ss = true ->
    forallb (core_stmt P gv false fret) ss = true ->
    visit_all (visit P gv false fret) false ss = Some ss' ->
    same_locals gv l l' -> same_world P w w' ->
    exec_all (exec P call k) ss l w = Some x ->
    rel3 x (exec_all (exec P2 call2 k) (extract_list (extract_stmt Q gv) ss') l' w').
  Proof.
    intros k ss; induction ss as [|s ss IH]; intros ss' l l' w w' x T Pl C V L W E; cbn [visit_all] in V.
    - inversion V; subst; cbn [exec_all extract_list] in *; inversion E; subst.
      exists ONormal, l', w'; cbn; auto.
    - inversion T as [|a b Ts Tss]; subst.
      cbn [forallb] in Pl, C; apply andb_prop in Pl; destruct Pl as [P1 Pl]; apply andb_prop in C; destruct C as [C1 C].
      destruct (visit P gv false fret false s) as [s'|] eqn:V1; [|discriminate].
      destruct (visit_all (visit P gv false fret) false ss) as [ss2|] eqn:V2; inversion V; subst.
      cbn [exec_all] in E; cbn [extract_list].
      destruct (exec P call k s l w) as [[[o1 l1] w1]|] eqn:E1; [|discriminate].
      pose proof (Ts _ _ _ _ _ _ _ _ P1 C1 V1 L W E1) as R.
      destruct (extract_stmt Q gv s') as [s2|].
      + destruct R as (o' & l1' & w1' & X & Or & L1 & W1); cbn [exec_all]; rewrite X.
        destruct o1; destruct o'; cbn [orel] in Or; try contradiction.
        * eapply IH; eauto.
        * inversion E; subst; exists OBreak, l1', w1'; cbn; auto.
        * inversion E; subst; exists OContinue, l1', w1'; cbn; auto.
        * inversion E; subst; exists (OReturn v0), l1', w1'; cbn; auto.
      + destruct R as (-> & L1 & W1); eapply IH; eauto.
  Qed.

  Lemma or_pass_exec : forall k ss l w,
    exec_all (exec P2 call2 k) (or_pass ss) l w = exec_all (exec P2 call2 k) ss l w.
  Proof. intros k ss l w; destruct ss; reflexivity. Qed.

  Lemma loop_transfer : forall t t2 (b b2 : locals -> world -> option (outcome * locals * world)),
    (forall l l' w w' w1 v, same_locals gv l l' -> same_world P w w' -> eval P call l t w = Some (w1, v) ->
       exists w1', eval P2 call2 l' t2 w' = Some (w1', v) /\ same_world P w1 w1') ->
    (forall l l' w w' x, same_locals gv l l' -> same_world P w w' -> b l w = Some x -> rel3 x (b2 l' w')) ->
    forall k l l' w w' x, same_locals gv l l' -> same_world P w w' ->
      loop P call k t b l w = Some x -> rel3 x (loop P2 call2 k t2 b2 l' w').
  Proof.
    intros t t2 b b2 Ht Hb k; induction k as [|k IH]; intros l l' w w' x L W E; cbn [loop] in E |- *;
      [discriminate|].
    destruct (eval P call l t w) as [[w1 v]|] eqn:E1; [|discriminate].
    destruct (Ht _ _ _ _ _ _ L W E1) as (w1' & X & W1); rewrite X.
    destruct (truth v).
    - destruct (b l w1) as [[[o2 l2] w2]|] eqn:E2; [|discriminate].
      destruct (Hb _ _ _ _ _ L W1 E2) as (o' & l2' & w2' & Y & Or & L2 & W2); rewrite Y.
      destruct o2; destruct o'; cbn [orel] in Or; try contradiction.
      + eapply IH; eauto.
      + inversion E; subst; exists ONormal, l2', w2'; cbn; auto.
      + eapply IH; eauto.
      + inversion E; subst; exists (OReturn v1), l2', w2'; cbn; auto.
    - inversion E; subst; exists ONormal, l', w1'; cbn; auto.
  Qed.

  Lemma extract_whole_eq : forall e e2, flag_ghost e = false -> extract e = Some e2 ->
    flag_contains e = false -> e2 = e.
  Proof. intros e e2 F X C; rewrite (extract_whole _ F C) in X; inversion X; reflexivity. Qed.

  Lemma assign_extract : forall t e e2 ot,
    flag_ghost e = false -> extract e = Some e2 -> extract_target Q gv t = ot ->
    (target_contains P gv t = false -> ot = Some t) ->
    extract_stmt Q gv (SAssign (false, flag_contains e || target_contains P gv t) t e) =
    Some (match ot with
          | None => SExpr (false, flag_contains e || target_contains P gv t) e2
          | Some t' => SAssign (false, flag_contains e || target_contains P gv t) t' e2
          end).
  Proof.
    intros t e e2 ot F X <- H.
    destruct (flag_contains e || target_contains P gv t) eqn:C.
    - cbn [extract_stmt sflags fst snd negb]; rewrite X; destruct (extract_target Q gv t); reflexivity.
    - rewrite extract_stmt_whole by reflexivity.
      apply orb_false_iff in C; destruct C as [C1 C2].
      rewrite (H C2), (extract_whole_eq _ _ F X C1); reflexivity.
  Qed.

  Lemma assign_regular : forall l l' t v w w' l1 w1,
    match t with
    | TName _ => True
    | TAttr r f => regular_chain P gv r = true
    | TSeq _ xs => True
    end ->
    same_locals gv l l' -> same_world P w w' ->
    assign P call l t v w = Some (l1, w1) ->
    exists l1' w1', assign P2 call2 l' t v w' = Some (l1', w1') /\ same_locals gv l1 l1' /\ same_world P w1 w1'.
  Proof.
    intros l l' t v w w' l1 w1 C L W E; destruct t as [x|r f|lst xs]; cbn [assign] in *.
    - inversion E; subst; eexists; eexists; split; [reflexivity|]; split; [apply locals_upd; exact L | exact W].
    - destruct (eval P call l r w) as [[w2 v2]|] eqn:E1; [|discriminate].
      destruct (chain_same P P2 call call2 gv _ _ _ _ _ _ _ C L W E1) as [-> K]; rewrite K.
      destruct v2; try discriminate; inversion E; subst.
      eexists; eexists; split; [reflexivity|]; split; [exact L | apply set_field_same; exact W].
    - destruct xs as [|x [|y [|z xs]]]; try discriminate.
      destruct v; try discriminate; inversion E; subst.
      eexists; eexists; split; [reflexivity|]; split; [apply locals_upd, locals_upd; exact L | exact W].
  Qed.

  Lemma assign_transfer : forall k fl t e, stransfer k (SAssign fl t e).
  Proof.
    intros k fl t e s' l l' w w' o l1 w1 Pl C V L W E.
    cbn [plain_stmt] in Pl; apply andb_prop in Pl; destruct Pl as [Pl _].
    cbn [core_stmt] in C; apply andb_prop in C; destruct C as [C Ct].
    cbn [exec] in E.
    destruct (eval P call l e w) as [[w2 v]|] eqn:E1; [|discriminate].
    destruct (assign P call l t v w2) as [[l2 w3]|] eqn:E2; inversion E; subst; clear E.
    (* when the statement is removed *)
    assert (Ghost : target_ghost P gv t = true -> core_expr P gv false false e = true ->
              ONormal = ONormal /\ same_locals gv l1 l' /\ same_world P w1 w').
    { intros G K.
      pose proof (core_effect _ _ Heff _ _ _ _ _ _ _ _ K E1) as S1.
      destruct (assign_ghost _ _ _ _ _ _ _ _ _ _ G Ct E2) as [S2 L2].
      split; [reflexivity|]; split.
      - eapply locals_trans; [apply locals_sym; exact L2 | exact L].
      - eapply same_trans; [|exact W]; apply same_sym; eapply same_trans; eauto. }
    (* when only the value is kept *)
    assert (Value : forall b e', rcheck P gv e = Some (b, e') -> flag_ghost e' = false ->
              target_ghost P gv t = true ->
              exists e2, extract e' = Some e2 /\ forall fl2,
                rel3 (ONormal, l1, w1) (exec P2 call2 k (SExpr fl2 e2) l' w')).
    { intros b e' R F G.
      destruct (rhs_transfer _ _ _ _ _ _ _ _ _ Pl C R F L W E1)
        as (e2 & w1' & v' & X & Y & Z & _).
      destruct (assign_ghost _ _ _ _ _ _ _ _ _ _ G Ct E2) as [S2 L2].
      exists e2; split; [exact X|]; intros fl2; cbn [exec]; rewrite Y.
      exists ONormal, l', w1'; split; [reflexivity|]; split; [exact Logic.I|]; split.
      - eapply locals_trans; [apply locals_sym; exact L2 | exact L].
      - eapply same_trans; [apply same_sym; exact S2 | exact Z]. }
    cbn [visit orb] in V.
    destruct (target_ghost P gv t && negb (is_call e)) eqn:D.
    { apply andb_prop in D; destruct D as [Tg _].
      unfold check_expr in V.
      destruct (gcheck P gv false e) as [[b e']|] eqn:Gc; [|discriminate].
      pose proof (gcheck_core P gv false false e (b, e') C (or_intror (plain_ann _ Pl)) Gc) as K.
      rewrite extract_stmt_ghost; [apply Ghost; assumption|].
      destruct t as [x|r f|lst xs];
        [destruct (assignable true true b (target_ghost P gv (TName x)))
        |destruct (assignable true true b (target_ghost P gv (TAttr r f)))
        |destruct (seq_ok gv true xs (unpack_values P e' b))];
        inversion V; subst; reflexivity. }
    unfold check_expr in V.
    destruct (rcheck P gv e) as [[b e']|] eqn:R; [|discriminate].
    assert (Simple : not_attr t = true \/ match t with TAttr _ _ => True | _ => False end) by (destruct t; auto).
    assert (One : (match t with TSeq _ _ => False | _ => True end) ->
      (if assignable false true b (target_ghost P gv t)
       then Some (SAssign ((false || target_ghost P gv t && flag_ghost (convert b (target_ghost P gv t) e')),
                  ((false || target_ghost P gv t && flag_ghost (convert b (target_ghost P gv t) e'))
                   || flag_contains (convert b (target_ghost P gv t) e') || target_contains P gv t)) t
                  (convert b (target_ghost P gv t) e'))
       else None) = Some s' ->
      match extract_stmt Q gv s' with
      | None => ONormal = ONormal /\ same_locals gv l1 l' /\ same_world P w1 w'
      | Some s2 => rel3 (ONormal, l1, w1) (exec P2 call2 k s2 l' w')
      end).
    { clear V; intros Ns V.
      destruct (assignable false true b (target_ghost P gv t)) eqn:As; [|discriminate].
      inversion V; subst; clear V; cbn [orb].
      assert (Tc : target_contains P gv t = target_ghost P gv t) by (destruct t; [reflexivity | reflexivity | contradiction]).
      destruct (target_ghost P gv t) eqn:Tg; cbn [andb orb].
      - destruct (flag_ghost (convert b true e')) eqn:F.
        + rewrite extract_stmt_ghost by reflexivity.
          apply Ghost; [reflexivity | eapply rhs_ghost; eauto].
        + destruct (convert_cases b true e') as [Cv|(Cv & _)]; [|congruence].
          rewrite Cv in *.
          destruct (Value _ _ eq_refl F eq_refl) as (e2 & X & K).
          cbn [orb].
          rewrite (assign_extract _ _ e2 None F X); [apply K | | rewrite Tc; discriminate].
          destruct t; cbn [extract_target target_ghost] in *; [rewrite Tg; reflexivity | | contradiction].
          rewrite Hgf, Tg; reflexivity.
      - assert (B : b = false) by (destruct b; [discriminate | reflexivity]); subst b.
        assert (Cv : convert false false e' = e') by (unfold convert; cbn [negb andb]; reflexivity).
        rewrite Cv in *.
        pose proof (rcheck_regular _ _ _ _ _ (plain_ann _ Pl) R eq_refl) as F.
        destruct (rhs_transfer _ _ _ _ _ _ _ _ _ Pl C R F L W E1)
          as (e2 & w1' & v' & X & Y & Z & Vv & _).
        rewrite (Vv eq_refl) in Y.
        assert (Tr : exists l2' w3', assign P2 call2 l' t v w1' = Some (l2', w3') /\
                       same_locals gv l1 l2' /\ same_world P w1 w3').
        { eapply assign_regular; [|exact L | exact Z | exact E2].
          destruct t; cbn [core_target target_ghost] in *; auto.
          unfold access in Ct; cbn [orb] in Ct; rewrite Tg in Ct; exact Ct. }
        destruct Tr as (l2' & w3' & Y2 & L2 & W2).
        rewrite (assign_extract _ _ e2 (Some t) F X); [| | reflexivity].
        + cbn [exec]; rewrite Y, Y2; exists ONormal, l2', w3'; cbn; auto.
        + destruct t; cbn [extract_target target_ghost] in *; [rewrite Tg; reflexivity | | contradiction].
          rewrite Hgf, Tg; reflexivity. }
    destruct t as [x|r f|lst xs].
    - apply One; [exact Logic.I | exact V].
    - apply One; [exact Logic.I | exact V].
    - clear One Simple.
      destruct (seq_ok gv false xs (unpack_values P e' b)) eqn:Sq; [|discriminate].
      inversion V; subst; clear V; cbn [orb].
      cbn [core_target] in Ct; apply negb_true_iff in Ct; subst lst.
      destruct xs as [|x [|y [|z xs]]]; try discriminate.
      cbn [target_ghost forallb target_contains existsb] in *.
      rewrite andb_true_r in *; rewrite orb_false_r in *.
      cbn [assign] in E2; destruct v as [| | |va vb]; try discriminate.
      inversion E2; subst; clear E2.
      cbn [seq_ok] in Sq; apply andb_prop in Sq; destruct Sq as [Sx Sy].
      unfold assignable in Sx, Sy; cbn [negb orb] in Sx, Sy; rewrite andb_true_r in Sx, Sy.
      assert (Tct : target_contains P gv (TSeq false [x; y]) = gv x || gv y)
        by (cbn [target_contains existsb]; rewrite orb_false_r; reflexivity).
      destruct (gv x) eqn:Gx; destruct (gv y) eqn:Gy; cbn [andb orb] in *.
      + destruct (flag_ghost e') eqn:F.
        * rewrite extract_stmt_ghost by reflexivity.
          apply Ghost; [reflexivity|].
          apply (rhs_ghost e b false e' Pl C R).
          unfold convert; rewrite andb_false_r; exact F.
        * destruct (Value _ _ eq_refl F eq_refl) as (e2 & X & K).
          replace (false || flag_contains e' || true)
            with (flag_contains e' || target_contains P gv (TSeq false [x; y])) by (rewrite Tct; reflexivity).
          rewrite (assign_extract _ _ e2 None F X); [apply K | | rewrite Tct; discriminate].
          cbn [extract_target filter]; rewrite Gx, Gy; reflexivity.
      + destruct (unpack_values P e' b) as [u1 u2] eqn:Un; cbn [fst snd] in *.
        exfalso; destruct u1; cbn in Sx; [|discriminate]; destruct u2; [discriminate|].
        unfold unpack_values in Un; destruct e'; try (inversion Un; congruence).
        destruct (flag_ghost (ECall a f args)); [discriminate|].
        destruct (f_ret (p_fun P f)); discriminate.
      + (* the first part is regular, the second one ghost *)
        destruct (unpack_values P e' b) as [u1 u2] eqn:Un; cbn [fst snd] in *.
        destruct u1; [discriminate|]; destruct u2; [|discriminate].
        assert (K : exists a f args, e = ECall a f args /\ flag_ghost e' = false /\ f_ret (p_fun P f) = RMixed).
        { unfold unpack_values in Un; destruct e' as [| | | | |a' f' args'|]; try (inversion Un; congruence).
          destruct (flag_ghost (ECall a' f' args')) eqn:F; [discriminate|].
          assert (exists a args, e = ECall a f' args) as (a & args & ->).
          { pose proof (plain_ann _ Pl) as A.
            revert R A; clear; intros R A; destruct e; cbn [ann] in A; subst; cbn [rcheck ann] in R.
            - inversion R.
            - inversion R.
            - inversion R.
            - destruct (mapM (rcheck P gv) es) as [[? ?]|]; inversion R.
            - destruct (rcheck P gv e1) as [[? ?]|]; [|discriminate].
              destruct (rcheck P gv e2) as [[? ?]|]; inversion R.
            - assert (K : forall g c, ghost_func P gv f g = Some c -> exists a2 l2, snd c = ECall a2 f l2).
              { intros g c H; unfold ghost_func in H; destruct (mapM (gcheck P gv true) g) as [[? ?]|];
                  inversion H; cbn; eauto. }
              destruct (f_ghost (p_fun P f)).
              + destruct (ghost_func P gv f args) as [[[? ?] ?]|] eqn:G; inversion R; subst.
                destruct (K _ _ G) as (? & ? & H); cbn in H; inversion H; eauto.
              + destruct (check_args P gv (rcheck P gv) (f_gvar (p_fun P f)) (f_params (p_fun P f)) args)
                  as [[[[? ?]|] all]|]; [| |discriminate].
                * inversion R; eauto.
                * destruct (f_pure (p_fun P f)); [|discriminate].
                  destruct (ghost_func P gv f all) as [[[? ?] ?]|] eqn:G; inversion R; subst.
                  destruct (K _ _ G) as (? & ? & H); cbn in H; inversion H; eauto.
            - destruct (mapM (rcheck P gv) args) as [[? ?]|]; inversion R. }
          exists a, f', args; split; [reflexivity|]; split; [reflexivity|].
          destruct (f_ret (p_fun P f')); try discriminate; reflexivity. }
        destruct K as (a & f & args & -> & F & Fr).
        destruct (rhs_transfer _ _ _ _ _ _ _ _ _ Pl C R F L W E1)
          as (e2 & w1' & v' & X & Y & Z & _ & Rs).
        specialize (Rs _ _ _ eq_refl); rewrite Fr in Rs; cbn [same_result] in Rs.
        destruct Rs as [[g Rs]|[Rs _]]; [|discriminate]; inversion Rs; subst.
        replace (flag_contains e' || true)
          with (flag_contains e' || target_contains P gv (TSeq false [x; y])) by (rewrite Tct; reflexivity).
        rewrite (assign_extract _ _ e2 (Some (TName x)) F X); [| | rewrite Tct; discriminate].
        * cbn [exec assign]; rewrite Y.
          exists ONormal, (upd l' x v'), w1'; split; [reflexivity|]; split; [exact Logic.I|]; split; [|exact Z].
          eapply locals_trans; [apply locals_sym; apply locals_upd_ghost; exact Gy | apply locals_upd; exact L].
        * cbn [extract_target filter]; rewrite Gx, Gy; reflexivity.
      + destruct (unpack_values P e' b) as [u1 u2] eqn:Un; cbn [fst snd] in *.
        assert (u1 = false) by (destruct u1; [discriminate | reflexivity]).
        assert (u2 = false) by (destruct u2; [discriminate | reflexivity]); subst.
        assert (K : b = false).
        { destruct b; [|reflexivity].
          destruct (rcheck_flag _ _ _ _ _ (plain_ann _ Pl) R) as (_ & R2 & Ic).
          unfold unpack_values in Un.
          destruct e' as [| | | | |a' f' args'|]; try discriminate.
          destruct (R2 eq_refl) as [R3|R3]; [rewrite R3 in Un; discriminate|].
          destruct e as [| | | | |a f args|]; try discriminate.
          destruct (flag_ghost (ECall a' f' args')) eqn:F; [discriminate|].
          pose proof (plain_ann _ Pl) as A; cbn [ann] in A; subst a.
          cbn [ghost_result] in R3; apply andb_prop in R3; destruct R3 as [R3 R4].
          apply negb_true_iff in R3.
          cbn [rcheck ann] in R; rewrite R3 in R.
          destruct (check_args P gv (rcheck P gv) (f_gvar (p_fun P f)) (f_params (p_fun P f)) args)
            as [[[[? ?]|] all]|]; [| |discriminate].
          - inversion R; subst.
            destruct (f_ret (p_fun P f')); discriminate.
          - destruct (f_pure (p_fun P f)); [|discriminate].
            destruct (ghost_func P gv f all) as [[[? ?] ?]|] eqn:G; inversion R; subst.
            apply ghost_func_flag in G; destruct G as (_ & G & _); congruence. }
        subst b.
        pose proof (rcheck_regular _ _ _ _ _ (plain_ann _ Pl) R eq_refl) as F.
        destruct (rhs_transfer _ _ _ _ _ _ _ _ _ Pl C R F L W E1)
          as (e2 & w1' & v' & X & Y & Z & Vv & _).
        rewrite (Vv eq_refl) in Y.
        replace (flag_contains e' || false)
          with (flag_contains e' || target_contains P gv (TSeq false [x; y])) by (rewrite Tct; reflexivity).
        rewrite (assign_extract _ _ e2 (Some (TSeq false [x; y])) F X); [| | reflexivity].
        * cbn [exec assign]; rewrite Y.
          exists ONormal, (upd (upd l' x va) y vb), w1'; split; [reflexivity|]; split; [exact Logic.I|];
            split; [apply locals_upd, locals_upd; exact L | exact Z].
        * cbn [extract_target filter]; rewrite Gx, Gy; reflexivity.
  Qed.

  (* One part of a returned tuple. *)
  Lemma part_transfer : forall e b e' tg l l' w w' w1 v,
    plain e = true -> core_expr P gv false false e = true -> rcheck P gv e = Some (b, e') ->
    same_locals gv l l' -> same_world P w w' -> eval P call l e w = Some (w1, v) ->
    match extract (convert b tg e') with
    | None => flag_ghost (convert b tg e') = true /\ same_world P w1 w'
    | Some e2 => flag_ghost (convert b tg e') = false /\
                 exists w1' v', eval P2 call2 l' e2 w' = Some (w1', v') /\ same_world P w1 w1' /\
                   (b = false -> v' = v)
    end.
  Proof.
    intros e b e' tg l l' w w' w1 v Pl C R L W E.
    destruct (flag_ghost (convert b tg e')) eqn:F.
    - rewrite extract_ghost by exact F; split; [reflexivity|].
      eapply same_trans; [apply same_sym; eapply core_effect; eauto | exact W].
    - destruct (convert_cases b tg e') as [Cv|(Cv & _)]; [|congruence].
      rewrite Cv in *.
      destruct (expr_transfer _ _ _ _ Hop Heff Hreg gv _ _ _ _ _ _ _ _ _ _ Pl C R F L W E)
        as (_ & e2 & w1' & v' & X & Y & Z & V).
      rewrite X; split; [reflexivity|]; exists w1', v'; auto.
  Qed.

  Lemma convert_false : forall b e, convert b false e = e.
  Proof. intros b e; unfold convert; rewrite andb_false_r; reflexivity. Qed.

  Lemma return_transfer : forall k fl e, stransfer k (SReturn fl e).
  Proof.
    intros k fl e s' l l' w w' o l1 w1 Pl C V L W E.
    cbn [plain_stmt core_stmt visit exec] in *.
    destruct e as [e|].
    2:{ inversion V; subst; inversion E; subst.
        cbn [extract_stmt sflags fst snd negb exec].
        exists (OReturn VNone), l', w'; split; [reflexivity|]; split; [|split; [exact L | exact W]].
        cbn [orel]; destruct fret; cbn [same_result]; auto. }
    destruct (eval P call l e w) as [[w2 v]|] eqn:E1; inversion E; subst; clear E.
    apply andb_prop in C; destruct C as [C Cm].
    (* a function whose result is regular or ghost as a whole *)
    assert (Whole : forall r b e', fret = r -> r <> RMixed -> rcheck P gv e = Some (b, e') ->
      assignable false true b (ret_ghost r) = true ->
      match extract_stmt Q gv (SReturn (false, ret_ghost r || flag_contains (convert b (ret_ghost r) e'))
                                 (Some (convert b (ret_ghost r) e'))) with
      | None => OReturn v = ONormal /\ same_locals gv l1 l' /\ same_world P w1 w'
      | Some s2 => rel3 (OReturn v, l1, w1) (exec P2 call2 k s2 l' w')
      end).
    { intros r b e' Fr Nm R As.
      assert (Bf : r = RReg -> b = false) by (intros ->; destruct b; [discriminate | reflexivity]).
      destruct (ret_ghost r || flag_contains (convert b (ret_ghost r) e')) eqn:Cn.
      2:{ apply orb_false_iff in Cn; destruct Cn as [C1 C2].
          assert (Er : r = RReg) by (destruct r; [reflexivity | discriminate | congruence]).
          pose proof (Bf Er) as Eb; clear Bf As; revert C2; rewrite Er, Eb in *; cbn [ret_ghost].
          rewrite convert_false; intros C2.
          pose proof (rcheck_regular _ _ _ _ _ (plain_ann _ Pl) R eq_refl) as F.
          destruct (rhs_transfer _ _ _ _ _ _ _ _ _ Pl C R F L W E1)
            as (e2 & w1' & v' & X & Y & Z & Vv & _).
          rewrite (Vv eq_refl) in Y.
          rewrite extract_stmt_whole by reflexivity.
          rewrite (extract_whole_eq _ _ F X C2) in Y.
          cbn [exec]; rewrite Y; exists (OReturn v), l', w1'; cbn [orel]; rewrite Fr; cbn; auto. }
      (* what is returned by the extracted function *)
      assert (K : exists s2, extract_stmt Q gv (SReturn (false, true) (Some (convert b (ret_ghost r) e'))) = Some s2 /\
        exists v' w1', exec P2 call2 k s2 l' w' = Some (OReturn v', l', w1') /\ same_world P w1 w1' /\
          (b = false -> ret_ghost r = false -> v' = v)).
      { assert (Tup : forall a x1 x2, e = ETuple a x1 x2 ->
          exists s2, extract_stmt Q gv (SReturn (false, true) (Some (convert b (ret_ghost r) e'))) = Some s2 /\
          exists v' w1', exec P2 call2 k s2 l' w' = Some (OReturn v', l', w1') /\ same_world P w1 w1' /\
          (b = false -> ret_ghost r = false -> v' = v)).
        { intros a x1 x2 ->.
          assert (Ce : core_expr P gv false false (ETuple a x1 x2) = true).
          { unfold core_rhs in C; rewrite orb_false_r in C; exact C. }
          pose proof (plain_ann _ Pl) as A; cbn [ann] in A; subst a.
          cbn [plain ann] in Pl; apply andb_prop in Pl; destruct Pl as [Pl1 Pl2].
          cbn [core_expr] in Ce; apply andb_prop in Ce; destruct Ce as [Ce1 Ce2].
          cbn [rcheck ann] in R.
          destruct (rcheck P gv x1) as [[b1 y1]|] eqn:R1; [|discriminate].
          destruct (rcheck P gv x2) as [[b2 y2]|] eqn:R2; [|discriminate].
          cbn [eval] in E1.
          destruct (eval P call l1 x1 w) as [[w3 v1]|] eqn:Ev1; [|discriminate].
          destruct (eval P call l1 x2 w3) as [[w4 v2]|] eqn:Ev2; [|discriminate].
          inversion E1; subst; clear E1.
          assert (Sh : exists a2, convert b (ret_ghost r) e' = ETuple a2 y1 y2).
          { inversion R; subst; unfold convert; cbn [is_call andb negb].
            destruct (negb (b1 || b2) && ret_ghost r); cbn; eauto. }
          destruct Sh as [a2 Sh]; rewrite Sh.
          assert (Bb : b = b1 || b2) by (inversion R; reflexivity).
          pose proof (part_transfer _ _ _ false _ _ _ _ _ _ Pl1 Ce1 R1 L W Ev1) as T1.
          rewrite convert_false in T1.
          cbn [extract_stmt sflags fst snd negb].
          destruct (extract y1) as [z1|].
          - destruct T1 as (_ & w3' & v1' & Y1 & W3 & V1).
            pose proof (part_transfer _ _ _ false _ _ _ _ _ _ Pl2 Ce2 R2 L W3 Ev2) as T2.
            rewrite convert_false in T2.
            destruct (extract y2) as [z2|].
            + destruct T2 as (_ & w4' & v2' & Y2 & W4 & V2).
              eexists; split; [reflexivity|]; exists (VPair v1' v2'), w4'; cbn [exec eval].
              rewrite Y1, Y2; split; [reflexivity|]; split; [exact W4|].
              intros Hb _; rewrite Bb in Hb; apply orb_false_iff in Hb; destruct Hb as [Hb1 Hb2].
              rewrite (V1 Hb1), (V2 Hb2); reflexivity.
            + destruct T2 as [F2 W4].
              eexists; split; [reflexivity|]; exists v1', w3'; cbn [exec].
              rewrite Y1; split; [reflexivity|]; split; [exact W4|].
              intros Hb _; rewrite Bb in Hb; apply orb_false_iff in Hb; destruct Hb as [Hb1 Hb2].
              rewrite (rcheck_regular _ _ _ _ _ (plain_ann _ Pl2) R2 Hb2) in F2; discriminate.
          - destruct T1 as [F1 W3].
            pose proof (part_transfer _ _ _ false _ _ _ _ _ _ Pl2 Ce2 R2 L W3 Ev2) as T2.
            rewrite convert_false in T2.
            destruct (rcheck_flag _ _ _ _ _ (plain_ann _ Pl1) R1) as (Rf & _).
            destruct (Rf F1) as [-> _].
            destruct (extract y2) as [z2|].
            + destruct T2 as (_ & w4' & v2' & Y2 & W4 & V2).
              eexists; split; [reflexivity|]; exists v2', w4'; cbn [exec].
              rewrite Y2; split; [reflexivity|]; split; [exact W4|]; intros Hb; rewrite Bb in Hb; discriminate.
            + destruct T2 as [_ W4].
              eexists; split; [reflexivity|]; exists VNone, w'; cbn [exec].
              split; [reflexivity|]; split; [exact W4|]; intros Hb; rewrite Bb in Hb; discriminate. }
        assert (Sh : (exists a x1 x2, e = ETuple a x1 x2) \/
                     extract_stmt Q gv (SReturn (false, true) (Some (convert b (ret_ghost r) e'))) =
                     Some (SReturn (false, true) (extract (convert b (ret_ghost r) e')))).
        { pose proof (plain_ann _ Pl) as A.
          assert (N : match e' with ETuple _ _ _ => exists a x1 x2, e = ETuple a x1 x2 | _ => True end).
          { revert R A; clear; intros R A; destruct e; cbn [ann] in A; subst; cbn [rcheck ann] in R;
              try (inversion R; subst; exact Logic.I).
            - destruct (mapM (rcheck P gv) es) as [[? ?]|]; inversion R; exact Logic.I.
            - destruct e'; eauto.
            - assert (K : forall g c, ghost_func P gv f g = Some c -> exists a2 l2, snd c = ECall a2 f l2).
              { intros g c H; unfold ghost_func in H; destruct (mapM (gcheck P gv true) g) as [[? ?]|];
                  inversion H; cbn; eauto. }
              destruct (f_ghost (p_fun P f)).
              + destruct (ghost_func P gv f args) as [[[? ?] ?]|] eqn:G; inversion R; subst.
                destruct (K _ _ G) as (? & ? & H); cbn in H; subst; exact Logic.I.
              + destruct (check_args P gv (rcheck P gv) (f_gvar (p_fun P f)) (f_params (p_fun P f)) args)
                  as [[[[? ?]|] all]|]; [| |discriminate].
                * inversion R; exact Logic.I.
                * destruct (f_pure (p_fun P f)); [|discriminate].
                  destruct (ghost_func P gv f all) as [[[? ?] ?]|] eqn:G; inversion R; subst.
                  destruct (K _ _ G) as (? & ? & H); cbn in H; subst; exact Logic.I.
            - destruct (mapM (rcheck P gv) args) as [[? ?]|]; inversion R; exact Logic.I. }
          destruct e' eqn:Ee; [right|right|right|right|left; exact N|right|right];
            unfold convert;
            match goal with |- context [if ?c then _ else _] => destruct c end; reflexivity. }
        destruct Sh as [(a & x1 & x2 & Sh)|Sh]; [eapply Tup; exact Sh|].
        rewrite Sh; eexists; split; [reflexivity|].
        destruct (flag_ghost (convert b (ret_ghost r) e')) eqn:F.
        - rewrite extract_ghost by exact F.
          exists VNone, w'; cbn [exec]; split; [reflexivity|].
          pose proof (rhs_ghost _ _ _ _ Pl C R F) as Ce.
          split; [eapply same_trans; [apply same_sym; eapply core_effect; eauto | exact W]|].
          intros Hb Hr; rewrite Hr in F; rewrite convert_false in F.
          rewrite (rcheck_regular _ _ _ _ _ (plain_ann _ Pl) R Hb) in F; discriminate.
        - destruct (convert_cases b (ret_ghost r) e') as [Cv|(Cv & _)]; [|congruence].
          rewrite Cv in *.
          destruct (rhs_transfer _ _ _ _ _ _ _ _ _ Pl C R F L W E1)
            as (e2 & w1' & v' & X & Y & Z & Vv & _).
          rewrite X; exists v', w1'; cbn [exec]; rewrite Y; auto. }
      destruct K as (s2 & X & v' & w1' & Y & Z & Vv); rewrite X, Y.
      exists (OReturn v'), l', w1'; split; [reflexivity|]; split; [|split; [exact L | exact Z]].
      cbn [orel]; rewrite Fr; destruct r; cbn [same_result]; [|exact Logic.I | congruence].
      apply Vv; [apply Bf; reflexivity | reflexivity]. }
    unfold visit_return in V.
    destruct fret eqn:Fr.
    - destruct (rcheck P gv e) as [[b e']|] eqn:R; [|discriminate].
      destruct (assignable false true b (ret_ghost RReg)) eqn:As; [|discriminate].
      inversion V; subst s'; clear V.
      apply (Whole RReg b e'); [reflexivity | discriminate | reflexivity | exact As].
    - destruct (rcheck P gv e) as [[b e']|] eqn:R; [|discriminate].
      destruct (assignable false true b (ret_ghost RGhost)) eqn:As; [|discriminate].
      inversion V; subst s'; clear V.
      apply (Whole RGhost b e'); [reflexivity | discriminate | reflexivity | exact As].
    - clear Whole.
      destruct e as [| | | |a x1 x2|a f args|]; try discriminate.
      + assert (Ce : core_expr P gv false false (ETuple a x1 x2) = true).
        { unfold core_rhs in C; rewrite orb_false_r in C; exact C. }
        pose proof (plain_ann _ Pl) as A; cbn [ann] in A; subst a.
        cbn [plain ann] in Pl; apply andb_prop in Pl; destruct Pl as [Pl1 Pl2].
        cbn [core_expr] in Ce; apply andb_prop in Ce; destruct Ce as [Ce1 Ce2].
        destruct (rcheck P gv x1) as [[b1 y1]|] eqn:R1; [|discriminate].
        destruct (assignable false true b1 false) eqn:A1; [|discriminate].
        destruct (rcheck P gv x2) as [[b2 y2]|] eqn:R2; [|discriminate].
        destruct (assignable false true b2 true) eqn:A2; [|discriminate].
        inversion V; subst s'; clear V.
        assert (b1 = false) by (destruct b1; [discriminate | reflexivity]); subst b1.
        cbn [eval] in E1.
        destruct (eval P call l1 x1 w) as [[w3 v1]|] eqn:Ev1; [|discriminate].
        destruct (eval P call l1 x2 w3) as [[w4 v2]|] eqn:Ev2; [|discriminate].
        inversion E1; subst; clear E1.
        pose proof (part_transfer _ _ _ false _ _ _ _ _ _ Pl1 Ce1 R1 L W Ev1) as T1.
        rewrite convert_false in T1.
        cbn [extract_stmt sflags fst snd negb].
        pose proof (rcheck_regular _ _ _ _ _ (plain_ann _ Pl1) R1 eq_refl) as F1.
        destruct (extract y1) as [z1|]; [|destruct T1; congruence].
        destruct T1 as (_ & w3' & v1' & Y1 & W3 & V1).
        rewrite (V1 eq_refl) in Y1.
        assert (F2 : flag_ghost (convert b2 true y2) = true).
        { apply negb_true_iff in Cm.
          destruct (rcheck_flag _ _ _ _ _ (plain_ann _ Pl2) R2) as (_ & Rf & Ic).
          destruct (convert_cases b2 true y2) as [Cv|(Cv & _)]; [|exact Cv].
          destruct b2.
          - destruct (Rf eq_refl) as [Rg|Rg]; [rewrite Cv; exact Rg | congruence].
          - (* an effect-free call or no call: it is converted *)
            unfold convert in *; cbn [negb andb] in *.
            destruct (is_call y2) eqn:Iy; cbn [andb negb] in *; [|destruct y2; reflexivity].
            destruct (flag_pure y2) eqn:Fp; cbn [negb] in *; [destruct y2; reflexivity|].
            exfalso; symmetry in Ic.
            destruct x2 as [| | | | |a2 f2 args2|a2 o2 args2]; try discriminate.
            + cbn [core_expr] in Ce2; apply andb_prop in Ce2; destruct Ce2 as [Ce2 Ce3].
              apply andb_prop in Ce2; destruct Ce2 as [Ce2 _].
              destruct (rcheck_call_core _ _ _ _ _ (plain_ann _ Pl2) Ce3 R2) as [_ H2].
              unfold effect_free in Ce2; rewrite <- H2, Fp in Ce2; cbn [orb] in Ce2.
              pose proof (plain_ann _ Pl2) as A; cbn [ann] in A; subst a2.
              cbn [rcheck ann] in R2; rewrite Ce2 in R2.
              destruct (ghost_func P gv f2 args2) as [[[? ?] ?]|] eqn:G; inversion R2; subst.
              apply ghost_func_flag in G; destruct G; discriminate.
            + pose proof (plain_ann _ Pl2) as A; cbn [ann] in A; subst a2.
              cbn [rcheck ann] in R2; destruct (mapM (rcheck P gv) args2) as [[? ?]|]; inversion R2; subst.
              discriminate. }
        rewrite (extract_ghost _ F2).
        cbn [exec]; rewrite Y1.
        exists (OReturn v1), l', w3'; split; [reflexivity|]; split.
        * cbn [orel]; rewrite Fr; cbn [same_result]; left; eauto.
        * split; [exact L|].
          eapply same_trans; [|exact W3]; apply same_sym; eapply core_effect; eauto.
      + destruct (rcheck P gv (ECall a f args)) as [[b e']|] eqn:R; [|discriminate].
        destruct (flag_ghost e') eqn:F; cbn [negb andb] in V; [discriminate|].
        destruct (f_ret (p_fun P f)) eqn:Ff; try discriminate.
        inversion V; subst s'; clear V.
        destruct (rhs_transfer _ _ _ _ _ _ _ _ _ Pl C R F L W E1)
          as (e2 & w1' & v' & X & Y & Z & _ & Rs).
        specialize (Rs _ _ _ eq_refl); rewrite Ff in Rs.
        assert (Sh : extract_stmt Q gv (SReturn (false, true) (Some e')) =
                     Some (SReturn (false, true) (extract e'))).
        { pose proof (plain_ann _ Pl) as A; cbn [ann] in A; subst a.
          cbn [rcheck ann] in R.
          destruct (f_ghost (p_fun P f)).
          - unfold ghost_func in R; destruct (mapM (gcheck P gv true) args) as [[? ?]|]; inversion R; reflexivity.
          - destruct (check_args P gv (rcheck P gv) (f_gvar (p_fun P f)) (f_params (p_fun P f)) args)
              as [[[[? ?]|] all]|]; [| |discriminate].
            + inversion R; reflexivity.
            + destruct (f_pure (p_fun P f)); [|discriminate].
              unfold ghost_func in R; destruct (mapM (gcheck P gv true) all) as [[? ?]|]; inversion R; reflexivity. }
        rewrite Sh, X; cbn [exec]; rewrite Y.
        exists (OReturn v'), l', w1'; split; [reflexivity|]; split; [|split; [exact L | exact Z]].
        cbn [orel]; rewrite Fr; exact Rs.
  Qed.

  (* A test that is regular. *)
  Lemma test_transfer : forall t g t1,
    plain t = true -> core_expr P gv false false t = true -> rcheck P gv t = Some (g, t1) -> g = false ->
    exists t2 : expr, forall l l' w w' w1 v, same_locals gv l l' -> same_world P w w' ->
      eval P call l t w = Some (w1, v) ->
      extract t1 = Some t2 /\
      exists w1', eval P2 call2 l' t2 w' = Some (w1', v) /\ same_world P w1 w1'.
  Proof.
    intros t g t1 Pl C R ->.
    exists (match extract t1 with Some t2 => t2 | None => t1 end).
    intros l l' w w' w1 v L W E.
    pose proof (rcheck_regular _ _ _ _ _ (plain_ann _ Pl) R eq_refl) as F.
    destruct (expr_transfer _ _ _ _ Hop Heff Hreg gv _ _ _ _ _ _ _ _ _ _ Pl C R F L W E)
      as (_ & e2 & w1' & v' & X & Y & Z & V).
    rewrite X; split; [reflexivity|]; exists w1'; rewrite (V eq_refl) in Y; auto.
  Qed.

  Lemma forall_ghost : forall k ss ss',
    forallb plain_stmt ss = true -> forallb (core_stmt P gv false fret) ss = true ->
    visit_all (visit P gv false fret) true ss = Some ss' ->
    keeps P (ghost_ok gv false) (exec_all (exec P call k) ss).
  Proof.
    intros k ss ss' Pl C V; apply visit_all_forall in V.
    apply exec_all_keeps; [apply ghost_ok_refl | apply ghost_ok_trans|].
    revert Pl C; induction V as [|s s' ss ss' V _ IH]; intros Pl C; constructor;
      cbn [forallb] in Pl, C; apply andb_prop in Pl; destruct Pl; apply andb_prop in C; destruct C; auto.
    eapply visit_ghost; eauto.
  Qed.

  Lemma ghost_ok_normal : forall o l l1, ghost_ok gv false o l l1 -> o = ONormal /\ same_locals gv l l1.
  Proof. intros o l l1 [A [B|[B _]]]; [auto | discriminate]. Qed.

  Lemma stmt_transfer : forall k s, stransfer k s.
  Proof.
    intros k s; induction s using stmt_ind2.
    - apply assign_transfer.
    - (* augmented assignment *)
      intros s' l l' w w' o1 l1 w1 Pl C V L W E.
      cbn [plain_stmt core_stmt visit exec] in *; cbn [orb] in V.
      destruct (l x) as [vx|] eqn:Lx; [|discriminate].
      destruct (eval P call l e w) as [[w2 v]|] eqn:E1; [|discriminate].
      destruct (p_op P o [vx; v]) as [v2|] eqn:Op; inversion E; subst; clear E.
      destruct (gv x) eqn:Gx.
      + apply andb_prop in C; destruct C as [C Ic]; rewrite Ic in V; cbn [andb orb] in V.
        destruct (check_expr P gv true e) as [[b e']|]; [|discriminate].
        destruct (assignable true true b true); inversion V; subst.
        rewrite extract_stmt_ghost by reflexivity.
        split; [reflexivity|]; split.
        * eapply locals_trans; [apply locals_sym; apply locals_upd_ghost; exact Gx | exact L].
        * eapply same_trans; [apply same_sym; eapply core_effect; eauto | exact W].
      + cbn [andb orb check_expr] in V.
        destruct (rcheck P gv e) as [[b e']|] eqn:R; [|discriminate].
        destruct (assignable false true b false) eqn:As; inversion V; subst.
        assert (b = false) by (destruct b; [discriminate | reflexivity]); subst b.
        pose proof (rcheck_regular _ _ _ _ _ (plain_ann _ Pl) R eq_refl) as F.
        destruct (rhs_transfer _ _ _ _ _ _ _ _ _ Pl C R F L W E1)
          as (e2 & w1' & v' & X & Y & Z & Vv & _).
        rewrite (Vv eq_refl) in Y.
        assert (K : extract_stmt Q gv (SAug (false, flag_contains e' || false) x o e') =
                    Some (SAug (false, flag_contains e' || false) x o e2)).
        { rewrite orb_false_r; destruct (flag_contains e') eqn:Cn.
          - cbn [extract_stmt sflags fst snd negb]; rewrite X; reflexivity.
          - rewrite extract_stmt_whole by reflexivity.
            rewrite (extract_whole_eq _ _ F X Cn); reflexivity. }
        rewrite K; cbn [exec]; rewrite <- (L x Gx), Lx, Y, Hop, Op.
        exists ONormal, (upd l' x v2), w1'; split; [reflexivity|]; split; [exact Logic.I|];
          split; [apply locals_upd; exact L | exact Z].
    - (* expression statement *)
      intros s' l l' w w' o1 l1 w1 Pl C V L W E.
      cbn [plain_stmt core_stmt visit exec] in *.
      apply andb_prop in C; destruct C as [C Cg]; apply negb_true_iff in Cg.
      destruct (eval P call l e w) as [[w2 v]|] eqn:E1; inversion E; subst; clear E.
      cbn [check_expr] in V.
      destruct (rcheck P gv e) as [[b e']|] eqn:R; [|discriminate].
      destruct b.
      + destruct (check_for_call P gv e') as [[b2 e2]|]; inversion V; subst.
        rewrite extract_stmt_ghost by reflexivity.
        destruct (rcheck_flag _ _ _ _ _ (plain_ann _ Pl) R) as (_ & Rf & _).
        destruct (Rf eq_refl) as [Rg|Rg]; [|congruence].
        assert (Ce : core_expr P gv false false e = true).
        { apply (rhs_ghost e true false e' Pl C R); rewrite convert_false; exact Rg. }
        split; [reflexivity|]; split; [exact L|].
        eapply same_trans; [apply same_sym; eapply core_effect; eauto | exact W].
      + inversion V; subst.
        pose proof (rcheck_regular _ _ _ _ _ (plain_ann _ Pl) R eq_refl) as F.
        destruct (rhs_transfer _ _ _ _ _ _ _ _ _ Pl C R F L W E1)
          as (e2 & w1' & v' & X & Y & Z & Vv & _).
        assert (K : extract_stmt Q gv (SExpr (false, flag_contains e') e') =
                    Some (SExpr (false, flag_contains e') e2)).
        { destruct (flag_contains e') eqn:Cn.
          - cbn [extract_stmt sflags fst snd negb]; rewrite X; reflexivity.
          - rewrite extract_stmt_whole by reflexivity.
            rewrite (extract_whole_eq _ _ F X Cn); reflexivity. }
        rewrite K; cbn [exec]; rewrite Y.
        exists ONormal, l', w1'; cbn; auto.
    - (* if *)
      intros s' l l' w w' o1 l1 w1 Pl C V L W E.
      cbn [plain_stmt core_stmt visit exec] in *; cbn [orb] in V.
      apply andb_prop in C; destruct C as [C C2]; apply andb_prop in C; destruct C as [C C1].
      apply andb_prop in Pl; destruct Pl as [Pl Pl2]; apply andb_prop in Pl; destruct Pl as [Pl Pl1].
      destruct (eval P call l t w) as [[w2 v]|] eqn:E1; [|discriminate].
      cbn [check_expr] in V.
      destruct (rcheck P gv t) as [[g t1]|] eqn:R; [|discriminate].
      destruct g.
      + destruct (check_for_call P gv t1) as [[? t']|]; [|discriminate].
        destruct (visit_all (visit P gv false fret) true b) as [b'|] eqn:Vb; [|discriminate].
        destruct (visit_all (visit P gv false fret) true o) as [o'|] eqn:Vo; inversion V; subst.
        rewrite extract_stmt_ghost by reflexivity.
        pose proof (core_effect _ _ Heff _ _ _ _ _ _ _ _ C E1) as S1.
        assert (K : same_world P w2 w1 /\ ghost_ok gv false o1 l l1).
        { destruct (truth v); [eapply (forall_ghost k b); eauto | eapply (forall_ghost k o); eauto]. }
        destruct K as [S2 K]; apply ghost_ok_normal in K; destruct K as [-> K].
        split; [reflexivity|]; split.
        * eapply locals_trans; [apply locals_sym; exact K | exact L].
        * eapply same_trans; [|exact W]; apply same_sym; eapply same_trans; eauto.
      + destruct (visit_all (visit P gv false fret) false b) as [b'|] eqn:Vb; [|discriminate].
        destruct (visit_all (visit P gv false fret) false o) as [o'|] eqn:Vo; inversion V; subst.
        destruct (test_transfer _ _ _ Pl C R eq_refl) as [t2 Ht].
        destruct (Ht _ _ _ _ _ _ L W E1) as (X & w2' & Y & W2).
        assert (Kb : truth v = true -> rel3 (o1, l1, w1)
                  (exec_all (exec P2 call2 k) (extract_list (extract_stmt Q gv) b') l' w2')).
        { intros Tv; rewrite Tv in E; exact (list_transfer k b b' l l' w2 w2' _ H Pl1 C1 Vb L W2 E). }
        assert (Ko : truth v = false -> rel3 (o1, l1, w1)
                  (exec_all (exec P2 call2 k) (extract_list (extract_stmt Q gv) o') l' w2')).
        { intros Tv; rewrite Tv in E; exact (list_transfer k o o' l l' w2 w2' _ H0 Pl2 C2 Vo L W2 E). }
        cbn [orb].
        destruct (flag_contains t1 || snd_flags b' || snd_flags o') eqn:Cn.
        * cbn [extract_stmt sflags fst snd negb]; rewrite X; cbn [exec]; rewrite Y.
          destruct (truth v); [rewrite or_pass_exec|]; auto.
        * apply orb_false_iff in Cn; destruct Cn as [Cn Cno]; apply orb_false_iff in Cn; destruct Cn as [Cnt Cnb].
          rewrite extract_stmt_whole by reflexivity.
          pose proof (rcheck_regular _ _ _ _ _ (plain_ann _ Pl) R eq_refl) as F.
          rewrite (extract_whole_eq _ _ F X Cnt) in Y.
          rewrite (extract_list_whole _ _ Pl1 C1 Vb Cnb) in Kb.
          rewrite (extract_list_whole _ _ Pl2 C2 Vo Cno) in Ko.
          cbn [exec]; rewrite Y; destruct (truth v); auto.
    - (* while *)
      intros s' l l' w w' o1 l1 w1 Pl C V L W E.
      cbn [plain_stmt core_stmt visit exec] in *; cbn [orb] in V.
      apply andb_prop in C; destruct C as [C C1]; apply andb_prop in Pl; destruct Pl as [Pl Pl1].
      cbn [check_expr] in V.
      destruct (rcheck P gv t) as [[g t1]|] eqn:R; [|discriminate].
      destruct g.
      + destruct (check_for_call P gv t1) as [[? t']|]; [|discriminate].
        destruct (visit_all (visit P gv false fret) true b) as [b'|] eqn:Vb; inversion V; subst.
        rewrite extract_stmt_ghost by reflexivity.
        assert (K : same_world P w w1 /\ ghost_ok gv false o1 l l1).
        { refine (loop_keeps P call (ghost_ok gv false) _ t _ _ _ _ _ _ k l w o1 l1 w1 E).
          - apply ghost_ok_refl.
          - apply ghost_ok_trans.
          - intros x y [_ [K|[K _]]]; discriminate.
          - intros x y [_ [K|[K _]]]; discriminate.
          - eapply forall_ghost; eauto.
          - intros; eapply core_effect; eauto. }
        destruct K as [S2 K]; apply ghost_ok_normal in K; destruct K as [-> K].
        split; [reflexivity|]; split.
        * eapply locals_trans; [apply locals_sym; exact K | exact L].
        * eapply same_trans; [|exact W]; apply same_sym; exact S2.
      + destruct (visit_all (visit P gv false fret) false b) as [b'|] eqn:Vb; inversion V; subst.
        destruct (test_transfer _ _ _ Pl C R eq_refl) as [t2 Ht].
        assert (Tr : forall bb, (forall l0 w0, exec_all (exec P2 call2 k) bb l0 w0 =
                         exec_all (exec P2 call2 k) (extract_list (extract_stmt Q gv) b') l0 w0) ->
                     rel3 (o1, l1, w1) (loop P2 call2 k t2 (exec_all (exec P2 call2 k) bb) l' w')).
        { intros bb Hbb; eapply loop_transfer; [| |exact L | exact W | exact E].
          - intros la la' wa wa' wa1 va La Wa Ea; destruct (Ht _ _ _ _ _ _ La Wa Ea) as (_ & K); exact K.
          - intros la la' wa wa' xa La Wa Ea; rewrite Hbb; exact (list_transfer k b b' la la' wa wa' xa H Pl1 C1 Vb La Wa Ea). }
        assert (X : extract t1 = Some t2).
        { destruct k as [|k']; [discriminate|].
          revert E; cbn [loop]; intros E.
          destruct (eval P call l t w) as [[wa va]|] eqn:Ea; [|discriminate].
          destruct (Ht _ _ _ _ _ _ L W Ea) as [K _]; exact K. }
        cbn [orb].
        destruct (flag_contains t1 || snd_flags b') eqn:Cn.
        * cbn [extract_stmt sflags fst snd negb]; rewrite X; cbn [exec].
          apply Tr; intros; apply or_pass_exec.
        * apply orb_false_iff in Cn; destruct Cn as [Cnt Cnb].
          rewrite extract_stmt_whole by reflexivity.
          pose proof (rcheck_regular _ _ _ _ _ (plain_ann _ Pl) R eq_refl) as F.
          rewrite (extract_whole_eq _ _ F X Cnt) in Tr.
          cbn [exec]; apply Tr; intros; rewrite (extract_list_whole _ _ Pl1 C1 Vb Cnb); reflexivity.
    - apply return_transfer.
    - intros s' l l' w w' o1 l1 w1 Pl C V L W E; cbn [visit exec] in *; inversion V; inversion E; subst.
      cbn [extract_stmt sflags fst snd negb exec]; exists OBreak, l', w'; cbn; auto.
    - intros s' l l' w w' o1 l1 w1 Pl C V L W E; cbn [visit exec] in *; inversion V; inversion E; subst.
      cbn [extract_stmt sflags fst snd negb exec]; exists OContinue, l', w'; cbn; auto.
    - intros s' l l' w w' o1 l1 w1 Pl C V L W E; cbn [visit exec] in *; inversion V; inversion E; subst.
      cbn [extract_stmt sflags fst snd negb exec]; exists ONormal, l', w'; cbn; auto.
    - intros s' l l' w w' o1 l1 w1 Pl C; discriminate.
  Qed.
End Statements.

Lemma bind_regular : forall gv xs vs l l' m,
  same_locals gv l l' -> bind l xs vs = Some m ->
  exists m', bind l' (filter (fun x => negb (gv x)) xs) (regular_args gv xs vs) = Some m' /\ same_locals gv m m'.
Proof.
  intros gv xs; induction xs as [|x xs IH]; intros [|v vs] l l' m L E; cbn [bind] in E; try discriminate.
  - inversion E; subst; exists l'; auto.
  - cbn [filter regular_args]; destruct (gv x) eqn:G; cbn [negb].
    + eapply IH; [|exact E].
      eapply locals_trans; [apply locals_sym; apply locals_upd_ghost; exact G | exact L].
    + cbn [bind]; eapply IH; [apply locals_upd; exact L | exact E].
Qed.

Lemma bind_all_regular : forall gv xs vs l m,
  forallb (fun x => negb (gv x)) xs = true -> bind l xs vs = Some m -> regular_args gv xs vs = vs.
Proof.
  intros gv xs; induction xs as [|x xs IH]; intros [|v vs] l m C E; cbn [bind] in E; try discriminate.
  - reflexivity.
  - cbn [forallb] in C; apply andb_prop in C; destruct C as [C1 C2]; apply negb_true_iff in C1.
    cbn [regular_args]; rewrite C1; f_equal; eauto.
Qed.

Section Programs.
  Variables P Q : program.
  Hypothesis HC : checked P Q.
  Hypothesis HW : well_formed P.
  Hypothesis HK : core P.
  Hypothesis HS : source P.

  Lemma checked_fields : forall f,
    f_ghost (p_fun Q f) = f_ghost (p_fun P f) /\ f_params (p_fun Q f) = f_params (p_fun P f) /\
    f_gvar (p_fun Q f) = f_gvar (p_fun P f) /\
    match f_code (p_fun P f) with
    | FPrim p => f_code (p_fun Q f) = FPrim p
    | FBody b => exists b', f_code (p_fun Q f) = FBody b' /\
        visit_all (visit P (f_gvar (p_fun P f)) (f_ghost (p_fun P f)) (f_ret (p_fun P f)))
          (f_ghost (p_fun P f)) b = Some b'
    end.
  Proof.
    intros f; destruct HC as [H _]; specialize (H f); unfold check_function in H.
    destruct (f_code (p_fun P f)) as [p|b] eqn:Fc.
    - injection H as E; rewrite <- E; auto.
    - destruct (visit_all (visit P (f_gvar (p_fun P f)) (f_ghost (p_fun P f)) (f_ret (p_fun P f)))
                  (f_ghost (p_fun P f)) b) as [b'|]; [|discriminate].
      injection H as E; rewrite <- E; cbn; repeat split; eauto.
  Qed.

  Lemma run_preserved : forall n,
    (forall f vs w w1 v, effect_free P f = true -> run P n f vs w = Some (w1, v) -> same_world P w w1) /\
    (forall f vs w w1 v w', f_ghost (p_fun P f) = false -> run P n f vs w = Some (w1, v) -> same_world P w w' ->
       exists w1' v',
         run (extract_program Q) n f (regular_args (f_gvar (p_fun P f)) (f_params (p_fun P f)) vs) w'
           = Some (w1', v') /\
         same_world P w1 w1' /\ same_result (f_ret (p_fun P f)) v v').
  Proof.
    intros n; induction n as [|n [IHe IHr]]; [split; intros; discriminate|].
    split.
    - intros f vs w w1 v Ef E; cbn [run] in E.
      destruct (bind empty (f_params (p_fun P f)) vs) as [l|] eqn:B; [|discriminate].
      destruct (HW f) as [Hg Hc]; pose proof (HK f) as Hk; pose proof (HS f) as Hs.
      destruct (checked_fields f) as (_ & _ & _ & Hq).
      destruct (f_code (p_fun P f)) as [p|b].
      + destruct Hc as [Hc _].
        assert (K : fst (p (w_out w) vs) = w_out w).
        { apply Hc; unfold effect_free in Ef; apply orb_prop in Ef; tauto. }
        destruct (p (w_out w) vs) as [out r]; cbn [fst] in K; inversion E; subst.
        split; [reflexivity | auto].
      + destruct (exec_all (exec P (run P n) n) b l w) as [[[o l1] w2]|] eqn:E1; [|discriminate].
        assert (w2 = w1) by (destruct o; inversion E; auto); subst w2.
        destruct (f_pure (p_fun P f)) eqn:Fp.
        * specialize (Hc eq_refl).
          assert (K : keeps P (fun _ _ _ => True) (exec_all (exec P (run P n) n) b)).
          { apply exec_all_keeps; auto.
            apply Forall_forall; intros s Hin; rewrite forallb_forall in Hc.
            apply pure_stmt_keeps; auto. }
          destruct (K _ _ _ _ _ E1); auto.
        * unfold effect_free in Ef; rewrite Fp in Ef; cbn [orb] in Ef.
          destruct Hq as (b' & _ & Hv); rewrite Ef in *.
          assert (K : keeps P (ghost_ok (f_gvar (p_fun P f)) true) (exec_all (exec P (run P n) n) b)).
          { apply visit_all_forall in Hv.
            apply exec_all_keeps; [apply ghost_ok_refl | apply ghost_ok_trans|].
            clear E1 Hc; revert Hs Hk; induction Hv as [|s s' ss ss' V _ IH]; intros Pl C; constructor;
              cbn [forallb] in Pl, C; apply andb_prop in Pl; destruct Pl; apply andb_prop in C; destruct C; auto.
            eapply visit_ghost; eauto. }
          destruct (K _ _ _ _ _ E1); auto.
    - intros f vs w w1 v w' Fg E W; cbn [run] in E |- *.
      destruct (bind empty (f_params (p_fun P f)) vs) as [l|] eqn:B; [|discriminate].
      destruct (HW f) as [_ Hc]; pose proof (HK f) as Hk; pose proof (HS f) as Hs.
      destruct (checked_fields f) as (Q1 & Q2 & Q3 & Hq).
      unfold extract_program at 1 2; cbn [p_fun]; rewrite Q1, Fg.
      cbn [f_params extract_function f_code]; rewrite Q2, Q3.
      destruct (bind_regular _ _ _ _ _ _ (locals_refl (f_gvar (p_fun P f)) empty) B) as (l' & B' & L).
      rewrite B'.
      destruct (f_code (p_fun P f)) as [p|b].
      + rewrite Hq; destruct Hc as [_ Hc]; destruct (Hc Fg) as [Hr Hp].
        rewrite (bind_all_regular _ _ _ _ _ Hp B).
        destruct W as [W1 W2]; rewrite <- W1.
        destruct (p (w_out w) vs) as [out r]; inversion E; subst.
        eexists; exists v; split; [reflexivity|]; split; [split; [reflexivity | exact W2]|].
        rewrite Hr; reflexivity.
      + destruct Hq as (b' & Hb & Hv); rewrite Hb, Fg in *.
        destruct (exec_all (exec P (run P n) n) b l w) as [[[o l1] w2]|] eqn:E1; [|discriminate].
        assert (w2 = w1) by (destruct o; inversion E; auto); subst w2.
        destruct HC as (_ & Hgf & Hop).
        rewrite or_pass_exec.
        assert (T : Forall (stransfer P Q (extract_program Q) (run P n) (run (extract_program Q) n)
                              (f_gvar (p_fun P f)) (f_ret (p_fun P f)) n) b).
        { apply Forall_forall; intros s _; apply stmt_transfer; auto. }
        destruct (list_transfer _ _ _ _ _ _ _ _ _ _ _ _ _ _ _ T Hs Hk Hv L W E1)
          as (o' & l1' & w1' & X & Or & L1 & W1).
        rewrite X.
        destruct o as [| | |r]; destruct o' as [| | |r']; cbn [orel] in Or; try contradiction; try discriminate.
        * inversion E; subst; exists w1', VNone; split; [reflexivity|]; split; [exact W1|].
          destruct (f_ret (p_fun P f)); cbn [same_result]; auto.
        * inversion E; subst; exists w1', r'; auto.
  Qed.

  Lemma c23_preserved : forall f, f_ghost (p_fun P f) = false -> preserved P Q f.
  Proof.
    intros f Fg n vs w w1 v w' E W.
    destruct (run_preserved n) as [_ H].
    exists n; eapply H; eauto.
  Qed.

  Lemma c23_ghost_effect : forall f n vs w w1 v,
    f_ghost (p_fun P f) = true -> run P n f vs w = Some (w1, v) -> same_world P w w1.
  Proof.
    intros f n vs w w1 v Fg E; destruct (run_preserved n) as [H _].
    eapply H; [|exact E]; unfold effect_free; rewrite Fg; apply orb_true_r.
  Qed.
End Programs.
