(** Executions of programs that verify do not fail. *)
From Coq Require Import List Bool Arith ZArith Lia.
From Verif Require Import GlobModel GlobSpec GlobProofs GlobProofs2.
Import ListNotations.
Local Open Scope nat_scope.

(** * Permissions *)
Lemma give_spec : forall ls p p', give ls p = Some p' ->
  NoDup ls /\ (forall l, In l ls -> p l = false) /\ (forall l, p' l = p l || only ls l).
Proof.
  induction ls as [|a ls IH]; intros p p' H; cbn [give] in H.
  - injection H as <-. split; [ constructor |]. split; [ intros l [] |]. intros l. cbn. now rewrite orb_false_r.
  - destruct (p a) eqn:E; [ discriminate |]. destruct (IH _ _ H) as (N & D & G).
    assert (NI : ~ In a ls). { intros K. specialize (D _ K). now rewrite upd_same in D. }
    split; [ now constructor |]. split.
    + intros l [<-|K]; [ exact E |]. specialize (D _ K). rewrite upd_other in D; [ exact D | congruence ].
    + intros l. rewrite G. unfold only. cbn [existsb]. destruct (key_eqb_spec l a) as [->|M].
      * rewrite upd_same. cbn. now rewrite orb_true_r.
      * rewrite upd_other by exact M. reflexivity.
Qed.
Lemma give_ok : forall ls p, NoDup ls -> (forall l, In l ls -> p l = false) -> exists p', give ls p = Some p'.
Proof.
  induction ls as [|a ls IH]; intros p N D; cbn [give]; [ eauto |]. rewrite (D a (or_introl eq_refl)).
  inversion N as [|? ? N1 N2]; subst. apply IH; [ exact N2 |]. intros l K. rewrite upd_other; [ apply D; now right | congruence ].
Qed.
Lemma only_in : forall ls l, only ls l = true <-> In l ls.
Proof.
  intros ls l. unfold only. rewrite existsb_exists. split.
  - intros (x & H & E). destruct (key_eqb_spec l x) as [->|]; [ exact H | discriminate ].
  - intros H. exists l. split; [ exact H | apply key_eqb_refl ].
Qed.
Lemma take_spec : forall ls p p', take ls p = Some p' ->
  NoDup ls /\ (forall l, In l ls -> p l = true) /\ (forall l, p' l = p l && negb (only ls l)).
Proof.
  induction ls as [|a ls IH]; intros p p' H; cbn [take] in H.
  - injection H as <-. split; [ constructor |]. split; [ intros l [] |]. intros l. cbn. now rewrite andb_true_r.
  - destruct (p a) eqn:E; [| discriminate ]. destruct (IH _ _ H) as (N & D & G).
    assert (NI : ~ In a ls). { intros K. specialize (D _ K). now rewrite upd_same in D. }
    split; [ now constructor |]. split.
    + intros l [<-|K]; [ exact E |]. specialize (D _ K). rewrite upd_other in D; [ exact D | congruence ].
    + intros l. rewrite G. unfold only. cbn [existsb]. destruct (key_eqb_spec l a) as [->|M].
      * rewrite upd_same. cbn. now rewrite andb_false_r.
      * rewrite upd_other by exact M. reflexivity.
Qed.

Section Sim.
  Variable P : prog.
  Variable I : key -> Z.
  Notation fin := (final P).
  Notation own k := (from_of P (fst k) (snd k) = None).
  Definition idh (k : key) : key := k.
  Variable clash : key -> Prop.

  Hypothesis CF : chain_free P.
  Hypothesis KF : keys_final P.
  Hypothesis OF : ok_funs P.
  Hypothesis FV : forall f d, In (f, d) (funs P) -> fun_ok P I idh d.
  Hypothesis DC : forall f d k, In (f, d) (funs P) -> In k (deps d) -> ~ clash k.

  Record rel (s : env) (st : vstate) : Prop := {
    r_heap : forall v z, fin v = false -> s v = Some z -> hp st v = z;
    r_fin : forall v z, fin v = true -> s v = Some z -> I v = z;
    r_nm : forall k, nm st k = true -> ~ clash k -> s k <> None;
    r_copy : copy P s }.

  Definition defd (main : bool) (m0 : nat) (s : env) (r : ref) : Prop :=
    if main then ~ clash (pykey m0 r) else s (pykey m0 r) <> None.

  Lemma read_ok : forall m0 r s st z, rel s st -> s (pykey m0 r) = Some z ->
    if fin (resolve P m0 r) then I (resolve P m0 r) = z else hp st (resolve P m0 r) = z.
  Proof.
    intros m0 r s st z R E. unfold resolve, owner. destruct (pykey m0 r) as [m x]. cbn [fst snd].
    destruct (from_of P m x) as [m'|] eqn:F.
    - destruct (CF _ _ _ F) as [_ G]. rewrite G. apply (r_fin _ _ R); [ exact G | exact (r_copy _ _ R _ _ _ _ F E) ].
    - destruct (fin (m, x)) eqn:Fk; [ now apply (r_fin _ _ R) | now apply (r_heap _ _ R) ].
  Qed.

  Lemma veval_eval : forall main m0 s st e z, rel s st -> (forall r, In r (refs e) -> defd main m0 s r) ->
    veval P I idh main m0 st e = Some z -> eval m0 s e = Some z.
  Proof.
    intros main m0 s st e. induction e; cbn [refs veval eval]; intros w R D E.
    - exact E.
    - specialize (D r (or_introl eq_refl)). cbv zeta in E.
      assert (K : s (pykey m0 r) <> None).
      { destruct main; cbn [defd andb] in *; [| exact D ]. destruct (nm st (pykey m0 r)) eqn:N; [| discriminate ].
        now apply (r_nm _ _ R). }
      destruct (s (pykey m0 r)) as [z0|] eqn:Es; [| congruence ].
      pose proof (read_ok m0 r s st z0 R Es) as X.
      destruct (main && negb (nm st (pykey m0 r))); [ discriminate |].
      destruct (fin (resolve P m0 r)); [ congruence |]. unfold idh in E. destruct (pm st _); congruence.
    - destruct (veval P I idh main m0 st e1) as [a|]; [| discriminate ]. destruct (veval P I idh main m0 st e2) as [b|]; [| discriminate ].
      rewrite (IHe1 a R), (IHe2 b R); auto; intros r H; apply D, in_or_app; tauto.
    - destruct (veval P I idh main m0 st e1) as [a|]; [| discriminate ]. destruct (veval P I idh main m0 st e2) as [b|]; [| discriminate ].
      rewrite (IHe1 a R), (IHe2 b R); auto; intros r H; apply D, in_or_app; tauto.
    - destruct (veval P I idh main m0 st e1) as [a|]; [| discriminate ]. destruct (veval P I idh main m0 st e2) as [b|]; [| discriminate ].
      rewrite (IHe1 a R), (IHe2 b R); auto; intros r H; apply D, in_or_app; tauto.
  Qed.

  (** More permissions do not matter. *)
  Lemma veval_mono : forall main m0 st st' e z, hp st' = hp st -> nm st' = nm st -> (forall l, pm st l = true -> pm st' l = true) ->
    veval P I idh main m0 st e = Some z -> veval P I idh main m0 st' e = Some z.
  Proof.
    intros main m0 st st' e. induction e; cbn [veval]; intros w Hh Hn Hp E.
    - exact E.
    - cbv zeta in *. rewrite Hn. destruct (main && negb (nm st (pykey m0 r))); [ discriminate |].
      destruct (fin (resolve P m0 r)); [ exact E |]. destruct (pm st (idh (resolve P m0 r))) eqn:K; [| discriminate ].
      now rewrite (Hp _ K), Hh.
    - destruct (veval P I idh main m0 st e1); [| discriminate ]. destruct (veval P I idh main m0 st e2); [| discriminate ].
      rewrite (IHe1 _ Hh Hn Hp eq_refl), (IHe2 _ Hh Hn Hp eq_refl). exact E.
    - destruct (veval P I idh main m0 st e1); [| discriminate ]. destruct (veval P I idh main m0 st e2); [| discriminate ].
      rewrite (IHe1 _ Hh Hn Hp eq_refl), (IHe2 _ Hh Hn Hp eq_refl). exact E.
    - destruct (veval P I idh main m0 st e1); [| discriminate ]. destruct (veval P I idh main m0 st e2); [| discriminate ].
      rewrite (IHe1 _ Hh Hn Hp eq_refl), (IHe2 _ Hh Hn Hp eq_refl). exact E.
  Qed.
  (** In functions, the sets of names do not matter. *)
  Lemma veval_names : forall m0 h p n1 n2 e,
    veval P I idh false m0 {| hp := h; pm := p; nm := n1 |} e = veval P I idh false m0 {| hp := h; pm := p; nm := n2 |} e.
  Proof. intros m0 h p n1 n2. induction e; cbn [veval]; cbn [andb hp pm nm]; try reflexivity; now rewrite IHe1, IHe2. Qed.

  (** What a simulated piece of execution does to the state of the verifier. *)
  Record step (m0 : nat) (st st' : vstate) : Prop := {
    s_pm : forall l, pm st' l = true -> pm st l = true;
    s_hp : forall l, pm st l = false -> hp st' l = hp st l;
    s_nm : forall k, nm st k = true -> nm st' k = true;
    s_other : forall k, fst k <> m0 -> nm st' k = nm st k }.
  Lemma step_refl : forall m0 st, step m0 st st. Proof. intros. split; auto. Qed.
  Lemma step_trans : forall m0 a b c, step m0 a b -> step m0 b c -> step m0 a c.
  Proof.
    intros m0 a b c A B. split.
    - intros l H. apply (s_pm _ _ _ A). now apply (s_pm _ _ _ B).
    - intros l H. rewrite (s_hp _ _ _ B); [ now apply (s_hp _ _ _ A) |]. destruct (pm b l) eqn:E; [| reflexivity ].
      rewrite (s_pm _ _ _ A _ E) in H. discriminate.
    - intros k H. apply (s_nm _ _ _ B). now apply (s_nm _ _ _ A).
    - intros k H. rewrite (s_other _ _ _ B _ H). now apply (s_other _ _ _ A).
  Qed.

  Definition reads_ok (main : bool) (m0 : nat) (p : stmt) (s : env) : Prop :=
    (forall r, In r (stmt_refs p) -> defd main m0 s r) /\
    (main = true -> (forall k, In k (froms p) -> ~ clash k) /\ (forall m x, In (RAttr m x) (targets p) -> clash (m0, x))).

  Lemma reads_ok_grows : forall main m0 p s s', grows s s' -> reads_ok main m0 p s -> reads_ok main m0 p s'.
  Proof.
    intros main m0 p s s' G [A B]. split; [| exact B ]. intros r H. specialize (A r H). destruct main; cbn [defd] in *; [ exact A | now apply G ].
  Qed.

  (** The variable after an assignment. *)
  Lemma assign_sim : forall main m0 r e z s st Q,
    ok P (negb main) m0 (SAssign r e) -> (main = true -> forall m x, r = RAttr m x -> clash (m0, x)) -> rel s st ->
    (forall v w, fin v = true -> upd s (pykey m0 r) (Some z) v = Some w -> I v = w) ->
    copy P (upd s (pykey m0 r) (Some z)) ->
    assign P I idh main m0 r z st Q ->
    exists st', rel (upd s (pykey m0 r) (Some z)) st' /\ Q st' /\ step m0 st st'.
  Proof.
    intros main m0 r e z s st Q [O V] CL R FI CP W. unfold assign in W. rewrite (own_resolve P _ _ O) in W.
    set (k := pykey m0 r) in *. unfold idh in W.
    assert (NM : forall st1 k', nm st1 = nm st -> nm (define main (m0, last_name r) st1) k' = true -> ~ clash k' -> upd s k (Some z) k' <> None).
    { intros st1 k' E N NC. destruct (key_eqb_spec k' k) as [->|D]; [ rewrite upd_same; discriminate |].
      rewrite upd_other by exact D. destruct main; cbn [define nm] in N; rewrite E in N; [| now apply (r_nm _ _ R) ].
      destruct (key_eqb_spec k' (m0, last_name r)) as [->|D2].
      - destruct r as [x|m x]; [ now destruct D |]. destruct (NC (CL eq_refl _ _ eq_refl)).
      - rewrite upd_other in N by exact D2. now apply (r_nm _ _ R). }
    assert (ST : forall st1, nm st1 = nm st -> (forall k', nm st k' = true -> nm (define main (m0, last_name r) st1) k' = true) /\
              (forall k', fst k' <> m0 -> nm (define main (m0, last_name r) st1) k' = nm st k')).
    { intros st1 E. destruct main; cbn [define nm]; rewrite E; [| split; auto ]. split.
      - intros k' H. destruct (key_eqb_spec k' (m0, last_name r)) as [->|D]; [ apply upd_same | now rewrite upd_other ].
      - intros k' H. apply upd_other. intros ->. now apply H. }
    destruct (fin k) eqn:F.
    - assert (E : I k = z) by (apply FI; [ exact F | apply upd_same ]).
      exists (define main (m0, last_name r) st). split; [| split; [ exact (W E) |] ].
      + split; auto.
        * intros v w Fv Ev. rewrite upd_other in Ev by congruence. exact (r_heap _ _ R _ _ Fv Ev).
        * intros k' N NC. now apply (NM st).
      + destruct (ST st eq_refl) as [S1 S2]. split; auto.
    - destruct W as [Wp W]. eexists. split; [| split; [ exact W |] ].
      + split; auto.
        * intros v w Fv Ev. cbn [define hp]. destruct (key_eqb_spec v k) as [->|D].
          -- rewrite upd_same in *. congruence.
          -- rewrite upd_other in * by exact D. exact (r_heap _ _ R _ _ Fv Ev).
        * intros k' N NC. now apply (NM {| hp := upd (hp st) k z; pm := pm st; nm := nm st |}).
      + destruct (ST {| hp := upd (hp st) k z; pm := pm st; nm := nm st |} eq_refl) as [S1 S2]. split; auto.
        intros l Hl. cbn [define hp]. apply upd_other. intros ->. congruence.
  Qed.

  Lemma vevals_evals : forall main m0 s st es zs, rel s st -> (forall r, In r (flat_map refs es) -> defd main m0 s r) ->
    vevals P I idh main m0 st es = Some zs -> evals m0 s es = Some zs.
  Proof.
    intros main m0 s st. induction es as [|e es IH]; cbn [vevals evals flat_map]; intros zs R D E; [ exact E |].
    destruct (veval P I idh main m0 st e) as [z|] eqn:E1; [| discriminate ]. destruct (vevals P I idh main m0 st es) as [l|] eqn:E2; [| discriminate ].
    rewrite (veval_eval main m0 s st e z R) by (auto; intros r H; apply D, in_or_app; tauto).
    rewrite (IH l R) by (auto; intros r H; apply D, in_or_app; tauto). exact E.
  Qed.

  Theorem sim : forall n main m0 p s o st Q,
    ok P (negb main) m0 p -> fresh P (negb main) m0 p s -> reads_ok main m0 p s -> rel s st ->
    exec (funs P) n m0 p s = Some o ->
    (forall v z, fin v = true -> oenv o v = Some z -> I v = z) ->
    wp P I idh main m0 p st Q ->
    exists s' st', o = Done s' /\ rel s' st' /\ Q st' /\ step m0 st st'.
  Proof.
    induction n as [|n IH]; intros main m0 p s o st Q K FR RO R E FI W; [ discriminate |].
    pose proof (exec_kept P CF OF KF _ _ _ _ _ _ K FR E) as KP.
    destruct p; cbn [exec] in E; cbn [wp] in W.
    - injection E as <-. exists s, st. split; [ reflexivity |]. split; [ exact R |]. split; [ exact W | apply step_refl ].
    - destruct K as (Ka & Kb & D). destruct RO as [RO1 RO2].
      assert (ROa : reads_ok main m0 p1 s).
      { split.
        - intros r H. apply RO1. cbn [stmt_refs]. apply in_or_app. now left.
        - intros M. destruct (RO2 M) as [X Y]. split; [ intros k H; apply X | intros m x H; apply (Y m) ]; cbn [froms targets]; apply in_or_app; now left. }
      assert (ROb : reads_ok main m0 p2 s).
      { split.
        - intros r H. apply RO1. cbn [stmt_refs]. apply in_or_app. now right.
        - intros M. destruct (RO2 M) as [X Y]. split; [ intros k H; apply X | intros m x H; apply (Y m) ]; cbn [froms targets]; apply in_or_app; now right. }
      assert (FRa : fresh P (negb main) m0 p1 s).
      { intros v F H. apply FR; [ exact F |]. cbn [writes]. apply in_or_app. now left. }
      destruct (exec (funs P) n m0 p1 s) as [[s1|s1]|] eqn:E1; try discriminate.
      + pose proof (exec_kept P CF OF KF _ _ _ _ _ _ Ka FRa E1) as KP1. cbn [oenv] in KP1.
        assert (FRb : fresh P (negb main) m0 p2 s1).
        { intros v F H.
          assert (Ov : own v).
          { apply writes_targets in H. apply in_map_iff in H. destruct H as (r & Hr & Hi).
            assert (X : forall p, ok P (negb main) m0 p -> In r (targets p) -> own (pykey m0 r)).
            { clear. induction p; cbn [targets ok]; intros K Hi; try (destruct Hi; fail).
              - destruct K as (K1 & K2 & _). apply in_app_or in Hi. destruct Hi; auto.
              - destruct Hi as [->|[]]. apply K.
              - destruct K as (K1 & K2). apply in_app_or in Hi. destruct Hi; auto.
              - destruct K. auto.
              - destruct K as (K1 & _ & K2 & _). destruct Hi as [<-|Hi]; auto. }
            specialize (X _ Kb Hi). rewrite <- Hr, (own_resolve P _ _ X). exact X. }
          rewrite (k_same _ _ _ _ _ _ KP1 v F Ov); [| intros W1; exact (D v F W1 H) ].
          apply FR; [ exact F |]. cbn [writes]. apply in_or_app. now right. }
        pose proof (exec_kept P CF OF KF _ _ _ _ _ _ Kb FRb E) as KP2.
        assert (FI1 : forall v z, fin v = true -> oenv (Done s1) v = Some z -> I v = z).
        { intros v z F Ev. apply FI; [ exact F |]. apply (k_fle _ _ _ _ _ _ KP2); [| exact F | exact Ev ].
          apply (k_copy _ _ _ _ _ _ KP1). apply (r_copy _ _ R). }
        destruct (IH main m0 p1 s (Done s1) st _ Ka FRa ROa R E1 FI1 W) as (s' & st1 & E' & R1 & W1 & S1).
        injection E' as <-.
        destruct (IH main m0 p2 s1 o st1 Q Kb FRb (reads_ok_grows _ _ _ _ _ (k_grows _ _ _ _ _ _ KP1) ROb) R1 E FI W1) as (s2 & st2 & -> & R2 & W2 & S2).
        exists s2, st2. split; [ reflexivity |]. split; [ exact R2 |]. split; [ exact W2 | eapply step_trans; eassumption ].
      + injection E as <-. destruct (IH main m0 p1 s (Fail s1) st _ Ka FRa ROa R E1 FI W) as (s' & st' & X & _). discriminate.
    - destruct (veval P I idh main m0 st e) as [z|] eqn:Ev; [| destruct W ].
      rewrite (veval_eval main m0 s st e z R) in E; [| intros r0 H; apply RO; exact H | exact Ev ].
      injection E as <-. cbn [oenv] in *.
      destruct (assign_sim main m0 r e z s st Q K) as (st' & R' & W' & S'); auto.
      + intros M m x ->. apply (proj2 (proj2 RO M) m). cbn [targets]. now left.
      + apply (k_copy _ _ _ _ _ _ KP), (r_copy _ _ R).
      + exists (upd s (pykey m0 r) (Some z)), st'. split; [ reflexivity |]. split; [ exact R' |]. split; [ exact W' | exact S' ].
    - destruct W as (M & N & W). subst main.
      assert (Sx : s (m, x) <> None).
      { apply (r_nm _ _ R); [ exact N |]. apply (proj1 (proj2 RO eq_refl)). cbn [froms]. now left. }
      destruct (s (m, x)) as [z|] eqn:Es; [| congruence ]. injection E as <-. cbn [oenv] in *.
      exists (upd s (m0, x) (Some z)), (define true (m0, x) st). split; [ reflexivity |]. split; [| split; [ exact W |] ].
      + split.
        * intros v w F Ev. cbn [define hp]. destruct K as [_ K]. rewrite upd_other in Ev; [ exact (r_heap _ _ R _ _ F Ev) |].
          intros ->. rewrite (KF _ _ _ K) in F. discriminate.
        * exact FI.
        * intros k Nk NC. cbn [define nm] in Nk. destruct (key_eqb_spec k (m0, x)) as [->|D]; [ rewrite upd_same; discriminate |].
          rewrite upd_other in * by exact D. now apply (r_nm _ _ R).
        * apply (k_copy _ _ _ _ _ _ KP), (r_copy _ _ R).
      + split; auto.
        * intros k Hk. cbn [define nm]. destruct (key_eqb_spec k (m0, x)) as [->|D]; [ apply upd_same | now rewrite upd_other ].
        * intros k Hk. cbn [define nm]. apply upd_other. intros ->. now apply Hk.
    - destruct (veval P I idh main m0 st c) as [z|] eqn:Ev; [| destruct W ].
      destruct RO as [RO1 RO2].
      rewrite (veval_eval main m0 s st c z R) in E; [| intros r0 H; apply RO1; cbn [stmt_refs]; apply in_or_app; now left | exact Ev ].
      destruct K as [Ka Kb]. destruct (z =? 0)%Z.
      + apply (IH main m0 p2 s o st Q); auto.
        * intros v F H. apply FR; [ exact F |]. cbn [writes]. apply in_or_app. now right.
        * split.
          -- intros r H. apply RO1. cbn [stmt_refs]. apply in_or_app. right. apply in_or_app. now right.
          -- intros M. destruct (RO2 M) as [X Y]. split; [ intros k H; apply X | intros m x H; apply (Y m) ]; cbn [froms targets]; apply in_or_app; now right.
      + apply (IH main m0 p1 s o st Q); auto.
        * intros v F H. apply FR; [ exact F |]. cbn [writes]. apply in_or_app. now left.
        * split.
          -- intros r H. apply RO1. cbn [stmt_refs]. apply in_or_app. right. apply in_or_app. now left.
          -- intros M. destruct (RO2 M) as [X Y]. split; [ intros k H; apply X | intros m x H; apply (Y m) ]; cbn [froms targets]; apply in_or_app; now left.
    - (* while *)
      unfold exhale in W. destruct (locs P idh m0 inv) as [ls|] eqn:L; [| destruct W ].
      destruct (take ls (pm st)) as [p0|] eqn:T; [| destruct W ].
      destruct (holds_in P I idh main m0 ls st (cond inv)) as [zi|] eqn:HI; [| destruct W ].
      destruct W as [Hzi W]. set (fr := {| hp := hp st; pm := p0; nm := nm st |}) in *.
      destruct (take_spec _ _ _ T) as (ND & Hin & Hp0).
      assert (HV : havoced m0 fr fr) by (repeat split; auto).
      destruct (W fr HV) as [W1 W2]. unfold inhale in W1, W2. rewrite L in W1, W2. cbn [nothing pm hp nm fr] in W1, W2.
      destruct (give_ok ls (fun _ => false) ND (fun l _ => eq_refl)) as [p1 G1]. rewrite G1 in W1.
      change (holds_in P I idh main m0 ls (nothing fr) (cond inv)) with (holds_in P I idh main m0 ls st (cond inv)) in W1.
      rewrite HI in W1. specialize (W1 Hzi). set (st1 := {| hp := hp st; pm := p1; nm := nm st |}) in *.
      destruct (give_spec _ _ _ G1) as (_ & _ & Hp1).
      assert (R1 : rel s st1) by (destruct R; split; auto).
      destruct (veval P I idh main m0 st1 c) as [zc|] eqn:Ec; [| destruct W1 ].
      destruct RO as [RO1 RO2].
      assert (Ec' : eval m0 s c = Some zc).
      { apply (veval_eval main m0 s st1 c zc R1); [| exact Ec ]. intros r H. apply RO1. cbn [stmt_refs]. apply in_or_app. right. apply in_or_app. now left. }
      rewrite Ec' in E. destruct (Z.eqb_spec zc 0) as [Z0|NZ]; [ rewrite Z0 in Ec, Ec' |].
      + injection E as <-. cbn [oenv] in *.
        destruct (give_ok ls p0 ND) as [p2 G2].
        { intros l H. rewrite Hp0. apply only_in in H. rewrite H. apply andb_false_r. }
        rewrite G2 in W2. change (holds_in P I idh main m0 ls fr (cond inv)) with (holds_in P I idh main m0 ls st (cond inv)) in W2.
        rewrite HI in W2. destruct (give_spec _ _ _ G2) as (_ & _ & Hp2).
        exists s, {| hp := hp st; pm := p2; nm := nm st |}. split; [ reflexivity |]. split; [ destruct R; split; auto |]. split.
        * apply W2; [ exact Hzi |]. apply (veval_mono main m0 st1); auto. intros l Hl. cbn [pm st1] in *. rewrite Hp1 in Hl. cbn in Hl.
          rewrite Hp2, Hl. apply orb_true_r.
        * split; auto. cbn [pm]. intros l Hl. rewrite Hp2, Hp0 in Hl. apply orb_true_iff in Hl. destruct Hl as [Hl|Hl].
          -- apply andb_true_iff in Hl. apply Hl.
          -- apply Hin. now apply only_in.
      + specialize (W1 NZ). pose proof K as (Kb & NW).
        assert (FB : forall s', fresh P (negb main) m0 p s').
        { intros s' v F H. specialize (NW v H). congruence. }
        assert (ROb : reads_ok main m0 p s).
        { split; [| exact RO2 ]. intros r H. apply RO1. cbn [stmt_refs]. apply in_or_app. right. apply in_or_app. now right. }
        destruct (exec (funs P) n m0 p s) as [[s1|s1]|] eqn:E1; try discriminate.
        * pose proof (exec_kept P CF OF KF _ _ _ _ _ _ Kb (FB s) E1) as KP1. cbn [oenv] in KP1.
          assert (FRw : fresh P (negb main) m0 (SWhile inv c p) s1) by (intros v F H; now apply FB).
          pose proof (exec_kept P CF OF KF _ _ _ _ _ _ K FRw E) as KP2.
          assert (FI1 : forall v z, fin v = true -> oenv (Done s1) v = Some z -> I v = z).
          { intros v z F Ev. apply FI; [ exact F |]. apply (k_fle _ _ _ _ _ _ KP2); [| exact F | exact Ev ].
            apply (k_copy _ _ _ _ _ _ KP1). apply (r_copy _ _ R). }
          destruct (IH main m0 p s (Done s1) st1 _ Kb (FB s) ROb R1 E1 FI1 W1) as (s' & st2 & E' & R2 & X2 & S2).
          injection E' as <-. cbv beta in X2. 
          destruct (take ls (pm st2)) as [p3|] eqn:T3; [| destruct X2 ].
          destruct (holds_in P I idh main m0 ls st2 (cond inv)) as [zj|] eqn:HJ; [| destruct X2 ].
          destruct X2 as [Hzj _].
          set (stL := {| hp := hp st2; pm := pm st; nm := nm st2 |}).
          assert (RL : rel s1 stL) by (destruct R2; split; auto).
          assert (SL : step m0 st stL).
          { split; auto.
            - intros l Hl. cbn [stL hp]. rewrite (s_hp _ _ _ S2); [ reflexivity |]. cbn [st1 pm]. rewrite Hp1. cbn.
              destruct (only ls l) eqn:Ol; [| reflexivity ]. apply only_in in Ol. rewrite (Hin _ Ol) in Hl. discriminate.
            - intros k Hk. apply (s_nm _ _ _ S2). exact Hk.
            - intros k Hk. apply (s_other _ _ _ S2 _ Hk). }
          assert (WL : wp P I idh main m0 (SWhile inv c p) stL Q).
          { cbn [wp]. unfold exhale. rewrite L. cbn [stL pm]. rewrite T.
            change (holds_in P I idh main m0 ls stL (cond inv)) with (holds_in P I idh main m0 ls st2 (cond inv)). rewrite HJ.
            split; [ exact Hzj |]. intros st' HV'. apply W. destruct HV' as (V1 & V2 & V3 & V4). cbn [hp pm nm stL fr] in *. repeat split; auto.
            - intros l Hl. rewrite (V1 l Hl). rewrite (s_hp _ _ _ S2); [ reflexivity |]. cbn [st1 pm]. rewrite Hp1. cbn.
              rewrite Hp0 in Hl. apply andb_true_iff in Hl. destruct (only ls l); [ destruct Hl; discriminate | reflexivity ].
            - intros k Hk. apply V3. apply (s_nm _ _ _ S2). exact Hk.
            - intros k Hk. rewrite (V4 k Hk). apply (s_other _ _ _ S2 _ Hk). }
          destruct (IH main m0 (SWhile inv c p) s1 o stL Q K FRw (reads_ok_grows _ _ _ _ _ (k_grows _ _ _ _ _ _ KP1) (conj RO1 RO2)) RL E FI WL) as (s2 & st3 & -> & R3 & X3 & S3).
          exists s2, st3. split; [ reflexivity |]. split; [ exact R3 |]. split; [ exact X3 | eapply step_trans; eassumption ].
        * injection E as <-. destruct (IH main m0 p s (Fail s1) st1 _ Kb (FB s) ROb R1 E1 FI W1) as (s' & st' & X & _). discriminate.
    - (* for *)
      destruct K as (O & NF & Kb & NW). destruct RO as [RO1 RO2].
      destruct (vevals P I idh main m0 st es) as [[|z zs]|] eqn:Ev; [| | destruct W ].
      + rewrite (vevals_evals main m0 s st es [] R) in E; [| intros r H; apply RO1; cbn [stmt_refs]; apply in_or_app; now left | exact Ev ].
        injection E as <-. cbn [oenv] in *.
        unfold exhale in W. destruct (locs P idh m0 inv) as [ls|] eqn:L; [| destruct W ].
        destruct (take ls (pm st)) as [p0|] eqn:T; [| destruct W ].
        destruct (holds_in P I idh main m0 ls st (cond inv)) as [zi|] eqn:HI; [| destruct W ].
        destruct W as [Hzi W]. set (fr := {| hp := hp st; pm := p0; nm := nm st |}) in *.
        destruct (take_spec _ _ _ T) as (ND & Hin & Hp0).
        assert (HV : havoced m0 fr fr) by (repeat split; auto).
        specialize (W fr HV). unfold inhale in W. rewrite L in W. cbn [pm hp nm fr] in W.
        destruct (give_ok ls p0 ND) as [p2 G2].
        { intros l H. rewrite Hp0. apply only_in in H. rewrite H. apply andb_false_r. }
        rewrite G2 in W. change (holds_in P I idh main m0 ls fr (cond inv)) with (holds_in P I idh main m0 ls st (cond inv)) in W.
        rewrite HI in W. destruct (give_spec _ _ _ G2) as (_ & _ & Hp2).
        exists s, {| hp := hp st; pm := p2; nm := nm st |}. split; [ reflexivity |]. split; [ destruct R; split; auto |]. split; [ now apply W |].
        split; auto. cbn [pm]. intros l Hl. rewrite Hp2, Hp0 in Hl. apply orb_true_iff in Hl. destruct Hl as [Hl|Hl].
        * apply andb_true_iff in Hl. apply Hl.
        * apply Hin. now apply only_in.
      + exfalso. unfold assign in W. rewrite (own_resolve P m0 (RName x) O) in W. cbn [pykey] in W. rewrite NF in W.
        destruct W as [_ [W _]]. discriminate.
    - destruct W as (z & Ev & NZ & W).
      rewrite (veval_eval main m0 s st e z R) in E; [| intros r0 H; apply RO; exact H | exact Ev ].
      destruct (Z.eqb_spec z 0); [ congruence |]. injection E as <-. exists s, st. split; [ reflexivity |]. split; [ exact R |]. split; [ exact W | apply step_refl ].
    - (* call *)
      cbn [ok] in K. destruct main; [| discriminate ].
      destruct (lookup f (funs P)) as [d|] eqn:Lf; [| destruct W ].
      pose proof (lookup_in _ _ _ _ Lf) as Hd.
      destruct W as [DP W]. specialize (DP eq_refl). destruct (OF f d Hd) as [Kd NW].
      assert (FB : fresh P true (f_mod d) (f_body d) s).
      { intros v F H. specialize (NW v H). congruence. }
      unfold exhale in W. destruct (locs P idh (f_mod d) (f_pre d)) as [ls|] eqn:L; [| destruct W ].
      destruct (take ls (pm st)) as [p0|] eqn:T; [| destruct W ].
      destruct (holds_in P I idh false (f_mod d) ls st (cond (f_pre d))) as [zi|] eqn:HI; [| destruct W ].
      destruct W as [Hzi W]. destruct (take_spec _ _ _ T) as (ND & Hin & Hp0).
      pose proof (FV f d Hd (hp st)) as V. unfold inhale in V. rewrite L in V. cbn [pm hp nm] in V.
      destruct (give_ok ls (fun _ => false) ND (fun l _ => eq_refl)) as [p1 G1]. rewrite G1 in V.
      destruct (give_spec _ _ _ G1) as (_ & _ & Hp1).
      unfold holds_in in V, HI. cbn [hp nm] in V. rewrite (veval_names _ _ _ _ (nm st)), HI in V. specialize (V Hzi).
      set (st1 := {| hp := hp st; pm := p1; nm := fun _ => false |}) in *.
      assert (R1 : rel s st1) by (destruct R; split; auto; intros; discriminate).
      assert (RO' : reads_ok false (f_mod d) (f_body d) s).
      { split; [| discriminate ]. intros r H. cbn [defd].
        assert (Hk : In (pykey (f_mod d) r) (deps d)) by (unfold deps; apply in_map, in_or_app; right; apply in_or_app; now right).
        apply (r_nm _ _ R); [ now apply DP | eapply DC; eassumption ]. }
      destruct (IH false (f_mod d) (f_body d) s o st1 _ Kd FB RO' R1 E FI V) as (s' & st2 & -> & R2 & X2 & S2).
      cbv beta in X2. unfold exhale in X2. destruct (locs P idh (f_mod d) (f_post d)) as [ls2|] eqn:L2; [| destruct X2 ].
      destruct (take ls2 (pm st2)) as [p3|] eqn:T3; [| destruct X2 ].
      destruct (holds_in P I idh false (f_mod d) ls2 st2 (cond (f_post d))) as [zj|] eqn:HJ; [| destruct X2 ].
      destruct X2 as [Hzj _]. destruct (take_spec _ _ _ T3) as (ND2 & Hin2 & _).
      assert (SUB : forall l, In l ls2 -> In l ls).
      { intros l Hl. pose proof (s_pm _ _ _ S2 l (Hin2 l Hl)) as X. cbn [st1 pm] in X. rewrite Hp1 in X. cbn in X. now apply only_in. }
      assert (HF : forall l, p0 l = true -> hp st2 l = hp st l).
      { intros l Hl. rewrite (s_hp _ _ _ S2); [ reflexivity |]. cbn [st1 pm]. rewrite Hp1. cbn.
        rewrite Hp0 in Hl. apply andb_true_iff in Hl. destruct (only ls l); [ destruct Hl; discriminate | reflexivity ]. }
      specialize (W (hp st2) HF). unfold inhale in W. rewrite L2 in W. cbn [pm hp nm] in W.
      destruct (give_ok ls2 p0 ND2) as [p4 G4].
      { intros l Hl. apply SUB in Hl. apply only_in in Hl. rewrite Hp0, Hl. apply andb_false_r. }
      rewrite G4 in W. destruct (give_spec _ _ _ G4) as (_ & _ & Hp4).
      unfold holds_in in W, HJ. cbn [hp nm] in W. rewrite (veval_names _ _ _ _ (nm st2)), HJ in W. specialize (W Hzj).
      exists s', {| hp := hp st2; pm := p4; nm := nm st |}. split; [ reflexivity |]. split; [| split; [ exact W |] ].
      + destruct R2 as [A1 A2 A3 A4]. split; auto. intros k Hk NC. apply (k_grows _ _ _ _ _ _ KP). now apply (r_nm _ _ R).
      + split; auto; cbn [pm hp nm].
        * intros l Hl. rewrite Hp4, Hp0 in Hl. apply orb_true_iff in Hl. destruct Hl as [Hl|Hl].
          -- apply andb_true_iff in Hl. apply Hl.
          -- apply Hin, SUB. now apply only_in.
        * intros l Hl. rewrite (s_hp _ _ _ S2); [ reflexivity |]. cbn [st1 pm]. rewrite Hp1. cbn.
          destruct (only ls l) eqn:Ol; [| reflexivity ]. apply only_in in Ol. rewrite (Hin _ Ol) in Hl. discriminate.
  Qed.
End Sim.
