(** Executions change final variables only once. *)
From Coq Require Import List Bool Arith ZArith Lia.
From Verif Require Import GlobModel GlobSpec.
Import ListNotations.
Local Open Scope nat_scope.

Lemma key_eqb_spec : forall a b, reflect (a = b) (key_eqb a b).
Proof.
  intros [a1 a2] [b1 b2]. unfold key_eqb. cbn [fst snd].
  destruct (Nat.eqb_spec a1 b1), (Nat.eqb_spec a2 b2); constructor; congruence.
Qed.
Lemma key_eqb_refl : forall a, key_eqb a a = true.
Proof. intros a. destruct (key_eqb_spec a a); congruence. Qed.
Lemma upd_same : forall A (e : key -> A) k a, upd e k a k = a.
Proof. intros. unfold upd. now rewrite key_eqb_refl. Qed.
Lemma upd_other : forall A (e : key -> A) k a k', k' <> k -> upd e k a k' = e k'.
Proof. intros. unfold upd. destruct (key_eqb_spec k' k); congruence. Qed.

(** * Counting writes *)
Definition cnt (v : key) (l : list key) : nat := length (filter (key_eqb v) l).
Lemma cnt_app : forall v a b, cnt v (a ++ b) = cnt v a + cnt v b.
Proof. intros. unfold cnt. now rewrite filter_app, app_length. Qed.
Lemma cnt_in : forall v l, In v l -> 1 <= cnt v l.
Proof.
  intros v l H. unfold cnt. assert (K : In v (filter (key_eqb v) l)) by (apply filter_In; split; [ exact H | apply key_eqb_refl ]).
  destruct (filter (key_eqb v) l); [ destruct K | cbn [length]; lia ].
Qed.
Lemma cnt_two : forall A (f : A -> key) v a b l, In a l -> In b l -> a <> b -> f a = v -> f b = v -> 2 <= cnt v (map f l).
Proof.
  intros A f v a b. induction l as [|c l IH]; intros Ha Hb N Fa Fb; [ destruct Ha |].
  cbn [map]. change (f c :: map f l) with ([f c] ++ map f l). rewrite cnt_app.
  destruct Ha as [->|Ha], Hb as [->|Hb].
  - congruence.
  - assert (1 <= cnt v (map f l)) by (apply cnt_in; rewrite <- Fb; now apply in_map).
    assert (cnt v [f a] = 1) by (unfold cnt; cbn [filter]; rewrite Fa, key_eqb_refl; reflexivity). lia.
  - assert (1 <= cnt v (map f l)) by (apply cnt_in; rewrite <- Fa; now apply in_map).
    assert (cnt v [f b] = 1) by (unfold cnt; cbn [filter]; rewrite Fb, key_eqb_refl; reflexivity). lia.
  - specialize (IH Ha Hb N Fa Fb). lia.
Qed.

Section Fixed.
  Variable P : prog.
  Notation fin := (final P).
  Notation own k := (from_of P (fst k) (snd k) = None).

  Lemma final_cnt : forall v, fin v = true -> cnt v (all_writes P) <= 1.
  Proof. intros v H. apply Nat.leb_le in H. exact H. Qed.

  Lemma own_resolve : forall m0 r, own (pykey m0 r) -> resolve P m0 r = pykey m0 r.
  Proof. intros m0 r H. unfold resolve, owner. now rewrite H. Qed.

  (** The targets are among the recorded writes. *)
  Lemma cnt_targets : forall infun m0 v p, cnt v (map (resolve P m0) (targets p)) <= cnt v (writes P infun m0 p).
  Proof.
    intros infun m0 v. induction p; cbn [targets writes map]; rewrite ?map_app, ?cnt_app; try lia.
    - destruct r; [ destruct infun |]; unfold cnt; cbn [filter]; destruct (key_eqb _ _); cbn [length]; lia.
    - cbv zeta. change (resolve P m0 (RName x) :: map (resolve P m0) (targets p)) with ([resolve P m0 (RName x)] ++ map (resolve P m0) (targets p)).
      rewrite cnt_app. assert (cnt v [resolve P m0 (RName x)] <= cnt v (if infun then [resolve P m0 (RName x); resolve P m0 (RName x)] else [resolve P m0 (RName x)])).
      { destruct infun; [| lia ]. unfold cnt; cbn [filter]; destruct (key_eqb _ _); cbn [length]; lia. }
      lia.
  Qed.
  Definition rk (d : nat * ref) : key := resolve P (fst d) (snd d).
  Lemma map_rk : forall m0 l, map rk (map (pair m0) l) = map (resolve P m0) l.
  Proof. intros. rewrite map_map. reflexivity. Qed.
  Lemma cnt_all_targets : forall v, cnt v (map rk (all_targets P)) <= cnt v (all_writes P).
  Proof.
    intros v. unfold all_targets, codes, all_writes. rewrite flat_map_app, map_app, !cnt_app.
    apply Nat.add_le_mono.
    - unfold mod_writes. induction (mods P) as [|[m p] l IH]; [ apply le_n |]. cbn [flat_map fst snd].
      rewrite map_app, !cnt_app, map_rk. pose proof (cnt_targets false m v p). lia.
    - unfold fun_writes. induction (funs P) as [|[f d] l IH]; [ apply le_n |]. cbn [flat_map map fst snd].
      rewrite map_app, !cnt_app, map_rk. pose proof (cnt_targets true (f_mod d) v (f_body d)). lia.
  Qed.

  (** Recorded writes are targets. *)
  Lemma writes_targets : forall infun m0 v p, In v (writes P infun m0 p) <-> In v (map (resolve P m0) (targets p)).
  Proof.
    intros infun m0 v. induction p; cbn [targets writes map]; try tauto.
    - rewrite map_app, !in_app_iff. tauto.
    - destruct r; [ destruct infun |]; cbn [In]; tauto.
    - rewrite map_app, !in_app_iff. tauto.
    - cbv zeta. rewrite in_app_iff. cbn [In]. destruct infun; cbn [In]; tauto.
  Qed.

  (** * Statements that are proved about *)
  Fixpoint ok (infun : bool) (m0 : nat) (p : stmt) : Prop :=
    match p with
    | SSkip | SAssert _ => True
    | SCall _ => infun = false
    | SSeq a b => ok infun m0 a /\ ok infun m0 b /\
        (forall v, fin v = true -> In v (writes P infun m0 a) -> In v (writes P infun m0 b) -> False)
    | SAssign r e => own (pykey m0 r) /\
        (fin (pykey m0 r) = true -> infun = false /\ value P (pykey m0 r) = Some (m0, e))
    | SFrom m x => infun = false /\ from_of P m0 x = Some m
    | SIf _ a b => ok infun m0 a /\ ok infun m0 b
    | SWhile _ _ b => ok infun m0 b /\ (forall v, In v (writes P infun m0 b) -> fin v = false)
    | SFor x _ _ b => own (m0, x) /\ fin (m0, x) = false /\ ok infun m0 b /\ (forall v, In v (writes P infun m0 b) -> fin v = false)
    end.

  Definition ok_funs : Prop :=
    forall f d, In (f, d) (funs P) -> ok true (f_mod d) (f_body d) /\
      forall v, In v (writes P true (f_mod d) (f_body d)) -> fin v = false.
  Definition chain_free : Prop := forall m0 x m, from_of P m0 x = Some m -> from_of P m x = None /\ fin (m, x) = true.

  Definition oenv (o : outcome) : env := match o with Done s => s | Fail s => s end.

  Definition ax (s : env) : Prop :=
    forall v z m0 e, fin v = true -> s v = Some z -> value P v = Some (m0, e) -> heap_dependent P m0 e = false ->
      eval m0 s e = Some z.
  Definition copy (s : env) : Prop :=
    forall m0 x m z, from_of P m0 x = Some m -> s (m0, x) = Some z -> s (m, x) = Some z.
  Definition fle (s s' : env) : Prop := forall v z, fin v = true -> s v = Some z -> s' v = Some z.
  Definition grows (s s' : env) : Prop := forall v, s v <> None -> s' v <> None.

  Lemma fle_refl : forall s, fle s s. Proof. intros s v z _ H. exact H. Qed.
  Lemma fle_trans : forall a b c, fle a b -> fle b c -> fle a c. Proof. intros a b c H K v z F E. auto. Qed.
  Lemma grows_refl : forall s, grows s s. Proof. intros s v H. exact H. Qed.
  Lemma grows_trans : forall a b c, grows a b -> grows b c -> grows a c. Proof. intros a b c H K v E. auto. Qed.

  Lemma lookup_in : forall A f (l : list (nat * A)) d, lookup f l = Some d -> In (f, d) l.
  Proof.
    intros A f. induction l as [|[g a] l IH]; intros d H; [ discriminate |]. cbn [lookup] in H.
    destruct (Nat.eqb_spec g f) as [->|]; [ injection H as ->; now left | right; auto ].
  Qed.

  Hypothesis CF : chain_free.
  Hypothesis OF : ok_funs.

  (** The key of a name that denotes a final variable is final. *)
  Definition keys_final : Prop := forall m0 x m, from_of P m0 x = Some m -> fin (m0, x) = true.
  Hypothesis KF : keys_final.

  Lemma resolve_key_final : forall m0 r, fin (resolve P m0 r) = true -> fin (pykey m0 r) = true.
  Proof.
    intros m0 r H. unfold resolve, owner in H. destruct (pykey m0 r) as [m x] eqn:E. cbn [fst snd] in H.
    destruct (from_of P m x) as [m'|] eqn:F; [ exact (KF _ _ _ F) | exact H ].
  Qed.

  Lemma eval_fle : forall m0 e s s' z, heap_dependent P m0 e = false -> fle s s' -> eval m0 s e = Some z -> eval m0 s' e = Some z.
  Proof.
    intros m0. unfold heap_dependent. induction e; cbn [refs eval existsb]; intros s s' w H L E.
    - exact E.
    - rewrite orb_false_r in H. apply negb_false_iff in H. apply L; [ now apply resolve_key_final | exact E ].
    - rewrite existsb_app in H. apply orb_false_iff in H. destruct H as [H1 H2].
      destruct (eval m0 s e1) eqn:E1; [| discriminate ]. destruct (eval m0 s e2) eqn:E2; [| discriminate ].
      now rewrite (IHe1 _ _ _ H1 L E1), (IHe2 _ _ _ H2 L E2).
    - rewrite existsb_app in H. apply orb_false_iff in H. destruct H as [H1 H2].
      destruct (eval m0 s e1) eqn:E1; [| discriminate ]. destruct (eval m0 s e2) eqn:E2; [| discriminate ].
      now rewrite (IHe1 _ _ _ H1 L E1), (IHe2 _ _ _ H2 L E2).
    - rewrite existsb_app in H. apply orb_false_iff in H. destruct H as [H1 H2].
      destruct (eval m0 s e1) eqn:E1; [| discriminate ]. destruct (eval m0 s e2) eqn:E2; [| discriminate ].
      now rewrite (IHe1 _ _ _ H1 L E1), (IHe2 _ _ _ H2 L E2).
  Qed.

  Definition fresh (infun : bool) (m0 : nat) (p : stmt) (s : env) : Prop :=
    forall v, fin v = true -> In v (writes P infun m0 p) -> s v = None.

  (** What one piece of execution does. *)
  Record kept (infun : bool) (m0 : nat) (p : stmt) (s s' : env) : Prop := {
    k_ax : ax s -> copy s -> ax s';
    k_copy : copy s -> copy s';
    k_fle : copy s -> fle s s';
    k_grows : grows s s';
    k_same : forall v, fin v = true -> own v -> ~ In v (writes P infun m0 p) -> s' v = s v }.

  Lemma kept_refl : forall infun m0 p s, kept infun m0 p s s.
  Proof. intros. split; auto using fle_refl, grows_refl. Qed.
  Lemma kept_trans : forall infun m0 p q r s s' s'',
    (forall v, fin v = true -> In v (writes P infun m0 p) -> In v (writes P infun m0 r)) ->
    (forall v, fin v = true -> In v (writes P infun m0 q) -> In v (writes P infun m0 r)) ->
    kept infun m0 p s s' -> kept infun m0 q s' s'' -> kept infun m0 r s s''.
  Proof.
    intros infun m0 p q r s s' s'' Wp Wq A B. split.
    - intros H C. apply (k_ax _ _ _ _ _ B); [ now apply (k_ax _ _ _ _ _ A) | now apply (k_copy _ _ _ _ _ A) ].
    - intros C. apply (k_copy _ _ _ _ _ B). now apply (k_copy _ _ _ _ _ A).
    - intros C. eapply fle_trans; [ apply (k_fle _ _ _ _ _ A C) | apply (k_fle _ _ _ _ _ B), (k_copy _ _ _ _ _ A C) ].
    - eapply grows_trans; [ apply (k_grows _ _ _ _ _ A) | apply (k_grows _ _ _ _ _ B) ].
    - intros v F O N. rewrite (k_same _ _ _ _ _ B), (k_same _ _ _ _ _ A); auto.
  Qed.
  Lemma kept_sub : forall infun m0 p infun' m0' q s s',
    (forall v, fin v = true -> In v (writes P infun m0 p) -> In v (writes P infun' m0' q)) ->
    kept infun m0 p s s' -> kept infun' m0' q s s'.
  Proof. intros infun m0 p infun' m0' q s s' W A. destruct A. split; auto. Qed.

  (** An assignment to a variable that is not final. *)
  Lemma kept_mut : forall infun m0 p s k z, own k -> fin k = false -> kept infun m0 p s (upd s k (Some z)).
  Proof.
    intros infun m0 p s k z O F.
    assert (L : fle s (upd s k (Some z))).
    { intros v w Fv E. rewrite upd_other; [ exact E | congruence ]. }
    split.
    - intros A C v w m1 e Fv E V H. rewrite upd_other in E by congruence. eapply eval_fle; [ exact H | exact L | exact (A _ _ _ _ Fv E V H) ].
    - intros C m1 x m w H E. assert (N : (m1, x) <> k). { intros K. rewrite <- K in O. cbn [fst snd] in O. congruence. }
      rewrite upd_other in E by exact N. specialize (C _ _ _ _ H E). rewrite upd_other; [ exact C |].
      destruct (CF _ _ _ H) as [_ G]. congruence.
    - intros _. exact L.
    - intros v H. destruct (key_eqb_spec v k) as [->|N]; [ rewrite upd_same; discriminate | now rewrite upd_other ].
    - intros v Fv _ _. apply upd_other. congruence.
  Qed.

  Lemma kept_assign : forall infun m0 r e s z,
    ok infun m0 (SAssign r e) -> fresh infun m0 (SAssign r e) s -> eval m0 s e = Some z ->
    kept infun m0 (SAssign r e) s (upd s (pykey m0 r) (Some z)).
  Proof.
    intros infun m0 r e s z [O V] FR E. set (k := pykey m0 r) in *.
    destruct (fin k) eqn:F; [| now apply kept_mut ].
    destruct (V eq_refl) as [_ V']. clear V.
    assert (W : In k (writes P infun m0 (SAssign r e))).
    { apply writes_targets. cbn [targets map In]. left. now apply own_resolve. }
    assert (N : s k = None) by (apply FR; assumption).
    assert (L : fle s (upd s k (Some z))).
    { intros v w _ Ev. rewrite upd_other; [ exact Ev | congruence ]. }
    split.
    - intros A C v w m1 e1 Fv Ev Vv Hv.
      destruct (key_eqb_spec v k) as [->|D].
      + rewrite upd_same in Ev. injection Ev as <-. rewrite V' in Vv. injection Vv as <- <-.
        eapply eval_fle; [ exact Hv | exact L | exact E ].
      + rewrite upd_other in Ev by exact D. eapply eval_fle; [ exact Hv | exact L | exact (A _ _ _ _ Fv Ev Vv Hv) ].
    - intros C m1 x m w H Ew. assert (D : (m1, x) <> k). { intros K. rewrite <- K in O. cbn [fst snd] in O. congruence. }
      rewrite upd_other in Ew by exact D. specialize (C _ _ _ _ H Ew). rewrite upd_other; [ exact C | congruence ].
    - intros _. exact L.
    - intros v H. destruct (key_eqb_spec v k) as [->|D]; [ rewrite upd_same; discriminate | now rewrite upd_other ].
    - intros v _ _ Nv. apply upd_other. intros ->. now apply Nv.
  Qed.

  Lemma kept_from : forall infun m0 m x s z, from_of P m0 x = Some m -> s (m, x) = Some z ->
    kept infun m0 (SFrom m x) s (upd s (m0, x) (Some z)).
  Proof.
    intros infun m0 m x s z H E.
    assert (ND : (m, x) <> (m0, x)). { intros K. injection K as K. destruct (CF _ _ _ H) as [G _]. congruence. }
    assert (L : copy s -> fle s (upd s (m0, x) (Some z))).
    { intros C v w _ Ev. destruct (key_eqb_spec v (m0, x)) as [->|D]; [| now rewrite upd_other ].
      rewrite upd_same. rewrite (C _ _ _ _ H Ev) in E. congruence. }
    split.
    - intros A C v w m1 e Fv Ev V Hv. destruct (key_eqb_spec v (m0, x)) as [->|D].
      + exfalso. (* a name that is imported has no value of its own *)
        revert V. unfold value. intros V. apply (fun Q => Q) in V.
        destruct (find _ _) as [[v' d]|] eqn:Fd in V; [| discriminate ]. apply find_some in Fd. destruct Fd as [I1 I2].
        cbn [fst] in I2. destruct (key_eqb_spec (m0, x) v') as [<-|]; [| discriminate ].
        apply in_rev in I1. apply in_flat_map in I1. destruct I1 as ([m2 p2] & I3 & I4). cbn [fst snd] in I4.
        assert (X : forall p, In ((m0, x), d) (assigned P m2 p) -> exists y, (m0, x) = resolve P m2 (RName y)).
        { clear. induction p; cbn [assigned]; intros K; try (destruct K; fail).
          - apply in_app_or in K. destruct K; auto.
          - destruct r; [| destruct K ]. cbn [In] in K. destruct K as [K|[]]. exists x0. congruence.
          - apply in_app_or in K. destruct K; auto.
          - auto.
          - auto. }
        destruct (X _ I4) as [y Hy]. unfold resolve, owner, pykey in Hy. cbn [fst snd] in Hy.
        destruct (from_of P m2 y) as [m3|] eqn:F3.
        * injection Hy as -> ->. destruct (CF _ _ _ F3) as [G _]. congruence.
        * injection Hy as -> ->. congruence.
      + rewrite upd_other in Ev by exact D. eapply eval_fle; [ exact Hv | exact (L C) | exact (A _ _ _ _ Fv Ev V Hv) ].
    - intros C m1 y m' w H' Ew. destruct (key_eqb_spec (m1, y) (m0, x)) as [K|D].
      + injection K as -> ->. rewrite upd_same in Ew. injection Ew as <-. rewrite H in H'. injection H' as <-.
        now rewrite upd_other.
      + rewrite upd_other in Ew by exact D. specialize (C _ _ _ _ H' Ew). rewrite upd_other; [ exact C |].
        intros K. injection K as -> ->. destruct (CF _ _ _ H') as [G _]. congruence.
    - exact L.
    - intros v Hv. destruct (key_eqb_spec v (m0, x)) as [->|D]; [ rewrite upd_same; discriminate | now rewrite upd_other ].
    - intros v _ O _. apply upd_other. intros ->. cbn [fst snd] in O. congruence.
  Qed.

  Lemma exec_kept : forall n infun m0 p s o,
    ok infun m0 p -> fresh infun m0 p s -> exec (funs P) n m0 p s = Some o -> kept infun m0 p s (oenv o).
  Proof.
    induction n as [|n IH]; intros infun m0 p s o K FR E; [ discriminate |].
    destruct p; cbn [exec] in E.
    - injection E as <-. apply kept_refl.
    - destruct K as (Ka & Kb & D).
      destruct (exec (funs P) n m0 p1 s) as [[s1|s1]|] eqn:E1; try discriminate.
      + assert (A : kept infun m0 p1 s s1).
        { apply (IH infun m0 p1 s (Done s1)); auto. intros v F W. apply FR; [ exact F |]. cbn [writes]. apply in_or_app. now left. }
        assert (B : kept infun m0 p2 s1 (oenv o)).
        { apply IH; auto. intros v F W.
          assert (O : own v).
          { apply writes_targets in W. apply in_map_iff in W. destruct W as (r & Hr & Hi).
            assert (X : forall p, ok infun m0 p -> In r (targets p) -> own (pykey m0 r)).
            { clear. induction p; cbn [targets ok]; intros K Hi; try (destruct Hi; fail).
              - destruct K as (K1 & K2 & _). apply in_app_or in Hi. destruct Hi; auto.
              - destruct Hi as [->|[]]. apply K.
              - destruct K as (K1 & K2). apply in_app_or in Hi. destruct Hi; auto.
              - destruct K. auto.
              - destruct K as (K1 & _ & K2 & _). destruct Hi as [<-|Hi]; auto. }
            specialize (X _ Kb Hi). rewrite <- Hr, (own_resolve _ _ X). exact X. }
          rewrite (k_same _ _ _ _ _ A v F O); [| intros W1; exact (D v F W1 W) ].
          apply FR; [ exact F |]. cbn [writes]. apply in_or_app. now right. }
        refine (kept_trans _ _ _ _ _ _ _ _ _ _ A B); intros v _ W; cbn [writes]; apply in_or_app; tauto.
      + injection E as <-. cbn [oenv].
        refine (kept_sub _ _ _ _ _ _ _ _ _ (IH infun m0 p1 s (Fail s1) Ka _ E1)).
        * intros v _ W. cbn [writes]. apply in_or_app. now left.
        * intros v F W. apply FR; [ exact F |]. cbn [writes]. apply in_or_app. now left.
    - destruct (eval m0 s e) eqn:Ee; injection E as <-; [| apply kept_refl ]. now apply kept_assign.
    - destruct (s (m, x)) eqn:Es; injection E as <-; [| apply kept_refl ]. destruct K as [_ K]. now apply kept_from.
    - destruct (eval m0 s c) as [z|]; [| injection E as <-; apply kept_refl ]. destruct K as [Ka Kb].
      destruct (z =? 0)%Z.
      + refine (kept_sub _ _ _ _ _ _ _ _ _ (IH infun m0 p2 s o Kb _ E)).
        * intros v _ W. cbn [writes]. apply in_or_app. now right.
        * intros v F W. apply FR; [ exact F |]. cbn [writes]. apply in_or_app. now right.
      + refine (kept_sub _ _ _ _ _ _ _ _ _ (IH infun m0 p1 s o Ka _ E)).
        * intros v _ W. cbn [writes]. apply in_or_app. now left.
        * intros v F W. apply FR; [ exact F |]. cbn [writes]. apply in_or_app. now left.
    - destruct (eval m0 s c) as [z|]; [| injection E as <-; apply kept_refl ].
      destruct (z =? 0)%Z; [ injection E as <-; apply kept_refl |].
      pose proof K as (Kb & NW).
      assert (FB : forall s', fresh infun m0 p s').
      { intros s' v F W. specialize (NW v W). congruence. }
      destruct (exec (funs P) n m0 p s) as [[s1|s1]|] eqn:E1; try discriminate.
      + assert (A := IH infun m0 p s (Done s1) Kb (FB s) E1).
        assert (B : kept infun m0 (SWhile inv c p) s1 (oenv o)).
        { apply IH; auto. intros v F W. cbn [writes] in W. now apply FB. }
        refine (kept_trans _ _ _ _ _ _ _ _ _ _ A B); intros v _ W; exact W.
      + injection E as <-. refine (kept_sub _ _ _ _ _ _ _ _ _ (IH infun m0 p s (Fail s1) Kb (FB s) E1)). intros v _ W; exact W.
    - destruct (evals m0 s es) as [zs|]; [| injection E as <-; apply kept_refl ].
      destruct K as (O & NF & Kb & NW).
      assert (FB : forall s', fresh infun m0 p s').
      { intros s' v F W. specialize (NW v W). congruence. }
      clear FR. revert s E. induction zs as [|z zs IZ]; intros s E; [ injection E as <-; apply kept_refl |].
      destruct (exec (funs P) n m0 p (upd s (m0, x) (Some z))) as [[s1|s1]|] eqn:E1; try discriminate.
      + assert (A0 : kept infun m0 (SFor x es inv p) s (upd s (m0, x) (Some z))) by (now apply kept_mut).
        assert (A1 := IH infun m0 p _ (Done s1) Kb (FB _) E1). cbn [oenv] in A1.
        refine (kept_trans _ _ (SFor x es inv p) (SFor x es inv p) _ _ _ _ (fun v _ W => W) (fun v _ W => W) A0 _).
        refine (kept_trans _ _ p (SFor x es inv p) _ _ _ _ _ (fun v _ W => W) A1 (IZ _ E)).
        intros v _ W. cbn [writes]. cbv zeta. apply in_or_app. now right.
      + injection E as <-. cbn [oenv].
        refine (kept_trans _ _ (SFor x es inv p) p _ _ _ _ (fun v _ W => W) _ (kept_mut _ _ _ s (m0, x) z O NF) (IH infun m0 p _ (Fail s1) Kb (FB _) E1)).
        intros v _ W. cbn [writes]. cbv zeta. apply in_or_app. now right.
    - destruct (eval m0 s e) as [z|]; [| injection E as <-; apply kept_refl ].
      destruct (z =? 0)%Z; injection E as <-; apply kept_refl.
    - destruct (lookup f (funs P)) as [d|] eqn:Lf; [| injection E as <-; apply kept_refl ].
      destruct (OF f d (lookup_in _ _ _ _ Lf)) as [Kd NW].
      assert (FB : fresh true (f_mod d) (f_body d) s).
      { intros v F W. specialize (NW v W). congruence. }
      refine (kept_sub _ _ _ _ _ _ _ _ _ (IH true (f_mod d) (f_body d) s o Kd FB E)).
      intros v F W. specialize (NW v W). congruence.
  Qed.
End Fixed.
