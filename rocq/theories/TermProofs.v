(* Proofs about termination promises. *)

From Coq Require Import List Bool Arith ZArith Lia.
From Verif Require Import TermModel TermSpec.
Import ListNotations.

Lemma measure_check_spec map key v :
  measure_check map key v = true <->
  forall e, In e map -> e_guard e = true -> e_key e = key -> (v < e_value e)%Z.
Proof.
  unfold measure_check. rewrite forallb_forall. split; intros H e M.
  - intros G K. specialize (H e M). rewrite G, K, Z.eqb_refl in H. cbn [andb implb] in H.
    apply Z.ltb_lt, H.
  - destruct (e_guard e) eqn:G; [|reflexivity]. cbn [andb].
    destruct (Z.eqb (e_key e) key) eqn:K; [|reflexivity]. apply Z.eqb_eq in K.
    cbn [implb]. apply Z.ltb_lt. auto.
Qed.

Section Proofs.
  Context {St : Type} (P : program St) (th : Z).

  (* Some obligation to terminate is active in s with a measure of at most k. *)
  Definition active (ts : list (tinst St)) (s : St) (k : Z) : Prop :=
    exists t, In t ts /\ t_guard t s = true /\ (t_measure t s <= k)%Z.

  Lemma amount_pos ts s k : active ts s k -> amount ts s <> 0.
  Proof.
    intros (t & M & G & _) E. unfold amount in E.
    assert (In t (filter (fun t => t_guard t s) ts)) as F by (apply filter_In; auto).
    apply length_zero_iff_nil in E. rewrite E in F. destruct F.
  Qed.

  Lemma amount_active (ts : list (tinst St)) s : amount ts s <> 0 -> exists k, active ts s k.
  Proof.
    unfold amount. intro H. destruct (filter (fun t => t_guard t s) ts) as [|t l] eqn:E.
    - destruct H. reflexivity.
    - assert (In t (filter (fun t => t_guard t s) ts)) as F by (rewrite E; left; auto).
      apply filter_In in F as [M G]. exists (t_measure t s), t. repeat split; auto. lia.
  Qed.

  Lemma flag_active (ts : list (tinst St)) s : tcond_no_measure ts s = true <-> amount ts s <> 0.
  Proof.
    unfold tcond_no_measure. rewrite existsb_exists. split.
    - intros (t & M & G). apply (amount_pos ts s (t_measure t s)). exists t.
      repeat split; auto. lia.
    - intro H. apply amount_active in H as (k & t & M & G & _). eauto.
  Qed.

  Lemma positive_active (ts : list (tinst St)) s k : positive_method ts s = true -> active ts s k -> (0 < k)%Z.
  Proof.
    intros H (t & M & G & L). unfold positive_method in H. rewrite forallb_forall in H.
    specialize (H t M). rewrite G in H. cbn [implb] in H. apply Z.ltb_lt in H. lia.
  Qed.

  Lemma positive_loop_active ts s k :
    positive_loop true ts s = true -> active ts s k -> (0 < k)%Z.
  Proof.
    intros H (t & M & G & L). unfold positive_loop in H. rewrite forallb_forall in H.
    specialize (H t M). rewrite G in H. cbn [implb] in H. apply Z.ltb_lt in H. lia.
  Qed.

  (* A passed check against the map initialised in s0 gives a smaller measure in s. *)
  Lemma tcond_smaller over ts0 os0 s0 k ts s :
    active ts0 s0 k -> tcond th (init_map th over ts0 os0 s0) ts s = true ->
    active ts s (if over then k else k - 1)%Z.
  Proof.
    intros (t0 & M0 & G0 & L0) H. unfold tcond in H. rewrite existsb_exists in H.
    destruct H as (t & M & H). apply andb_true_iff in H as [G C].
    rewrite measure_check_spec in C.
    exists t. repeat split; auto.
    assert (t_measure t s < (if over then t_measure t0 s0 + 1 else t_measure t0 s0))%Z as Q.
    { apply (C {| e_guard := t_guard t0 s0; e_key := th;
                  e_value := if over then (t_measure t0 s0 + 1)%Z else t_measure t0 s0 |}); auto.
      unfold init_map. apply in_or_app. left. apply in_map_iff. exists t0. auto. }
    destruct over; lia.
  Qed.

  Definition good_calls (map : list entry) : Prop :=
    forall m a, m_kind (p_method P m) = Verified -> m_pre (p_method P m) a ->
      positive_method (m_term (p_method P m)) a = true ->
      tcond th map (m_term (p_method P m)) a = true ->
      forall n, runs P m n ->
        m_kind (p_method P n) = Verified /\ terminates P (m_body (p_method P n)) a.

  Lemma runs_interface (A : accepted P th) m n t : runs P m n ->
    m_kind (p_method P m) = Interface t -> n = m.
  Proof.
    intros R K. inversion R as [|m' n' k O R']; subst; auto.
    apply (acc_kind P th A) in O as [V _]. congruence.
  Qed.

  Lemma passes_terminates (A : accepted P th) map : good_calls map ->
    forall c s perm, perm <> 0 -> passes P th map perm c s -> terminates P c s.
  Proof.
    intros HC c. induction c as [r|a IHa b IHb|t a IHa b IHb|a IHa b IHb|m enter leave|l body IH];
      intros s perm Hp H.
    - constructor.
    - destruct H as [H1 H2]. constructor; eauto.
    - constructor. cbn in H. destruct (t s); eauto.
    - destruct H as [H1 H2]. constructor; eauto.
    - cbn in H. destruct H as (Hpre & Hpos & leak & H).
      destruct (m_kind (p_method P m)) as [|[|]] eqn:K; cbn in H.
      + apply orb_true_iff in H as [H|H].
        * constructor; intros n R.
          -- destruct (HC m (enter s) K Hpre Hpos H n R) as [V _]. congruence.
          -- intros _. apply (HC m (enter s) K Hpre Hpos H n R).
        * apply andb_true_iff in H as [H _]. apply Nat.eqb_eq in H. contradiction.
      + constructor; intros n R; pose proof (runs_interface A m n _ R K); subst n; congruence.
      + apply andb_true_iff in H as [H _]. apply Nat.eqb_eq in H. contradiction.
    - cbn [passes] in H. destruct H as (Hpos & (leak & Hb) & Hit).
      destruct (l_test l s) eqn:T; [|apply te_done; auto].
      unfold before_loop_check in Hb. rewrite orb_false_r in Hb.
      apply orb_true_iff in Hb as [Hflag|Hb];
        [|apply andb_true_iff in Hb as [Hb _]; apply Nat.eqb_eq in Hb; contradiction].
      rewrite Hflag in Hit.
      assert (forall k s1, at_head P l body s s1 ->
        (l_test l s1 = true -> active (l_term l) s1 (Z.of_nat k) /\
           positive_loop true (l_term l) s1 = true) ->
        terminates P (Loop l body) s1) as Main.
      { induction k as [|k IHk]; intros s1 Hh Hact.
        - destruct (l_test l s1) eqn:T1; [|apply te_done; auto].
          destruct (Hact eq_refl) as [Q1 Q2].
          pose proof (positive_loop_active _ _ _ Q2 Q1). lia.
        - destruct (l_test l s1) eqn:T1; [|apply te_done; auto].
          destruct (Hact eq_refl) as [Q1 Q2]. destruct (Hit s1 Hh T1) as [Hbody Hend].
          apply te_loop.
          + apply IH with (perm := amount (l_term l) s1); auto.
            apply amount_pos in Q1. exact Q1.
          + intros o s2 Ex Go. destruct (Hend o s2 Ex Go) as [Hc Hp2].
            apply IHk; [econstructor; eauto|]. intro T2. rewrite T2 in Hc, Hp2. split; auto.
            unfold end_of_body_check in Hc. cbn [implb negb orb] in Hc.
            pose proof (tcond_smaller false _ _ _ _ _ _ Q1 Hc) as Q. cbv beta iota in Q.
            replace (Z.of_nat k) with (Z.of_nat (S k) - 1)%Z by lia. exact Q. }
      apply flag_active, amount_active in Hflag as (k & Act).
      apply (Main (Z.to_nat k) s); [constructor|]. intros _. split; auto.
      pose proof (positive_loop_active _ _ _ Hpos Act).
      rewrite Z2Nat.id by lia. exact Act.
  Qed.

  Lemma runs_active (A : accepted P th) m n : runs P m n -> forall a k,
    m_kind (p_method P m) = Verified -> m_pre (p_method P m) a ->
    positive_method (m_term (p_method P m)) a = true ->
    active (m_term (p_method P m)) a k ->
    m_kind (p_method P n) = Verified /\ m_pre (p_method P n) a /\
    positive_method (m_term (p_method P n)) a = true /\ active (m_term (p_method P n)) a k.
  Proof.
    intro R; induction R as [m|m n k' O R IH]; intros a k V Hpre Hpos Act; auto.
    destruct (acc_over P th A m n a O Hpre Hpos) as (Hpre' & Hpos' & leak & C).
    apply IH; auto.
    - apply (acc_kind P th A) in O as [_ V']. exact V'.
    - unfold override_check, caller_check in C. apply orb_true_iff in C as [C|C].
      + apply (tcond_smaller true _ _ _ _ _ _ Act C).
      + apply andb_true_iff in C as [C _]. apply Nat.eqb_eq in C.
        destruct (amount_pos _ _ _ Act C).
  Qed.

  Lemma method_terminates (A : accepted P th) : forall k m a,
    m_kind (p_method P m) = Verified -> m_pre (p_method P m) a ->
    positive_method (m_term (p_method P m)) a = true ->
    active (m_term (p_method P m)) a (Z.of_nat k) ->
    terminates P (m_body (p_method P m)) a.
  Proof.
    induction k as [|k IH]; intros m a V Hpre Hpos Act.
    - pose proof (positive_active _ _ _ Hpos Act). lia.
    - apply (passes_terminates A
        (init_map th false (m_term (p_method P m)) (m_other (p_method P m)) a))
        with (perm := amount (m_term (p_method P m)) a).
      + intros m2 a2 V2 Hpre2 Hpos2 C n R.
        pose proof (tcond_smaller false _ _ _ _ _ _ Act C) as Q. cbv beta iota in Q.
        replace (Z.of_nat (S k) - 1)%Z with (Z.of_nat k) in Q by lia.
        destruct (runs_active A m2 n R a2 _ V2 Hpre2 Hpos2 Q) as (V3 & P3 & Pos3 & Act3).
        split; [exact V3|]. apply IH; auto.
      + apply amount_pos in Act. exact Act.
      + apply (acc_body P th A); auto.
  Qed.

  Theorem promise_terminates (A : accepted P th) m s :
    m_kind (p_method P m) = Verified -> m_pre (p_method P m) s ->
    positive_method (m_term (p_method P m)) s = true ->
    tcond_no_measure (m_term (p_method P m)) s = true ->
    forall n, runs P m n -> terminates P (m_body (p_method P n)) s.
  Proof.
    intros V Hpre Hpos F n R. apply flag_active, amount_active in F as (k & Act).
    destruct (runs_active A m n R s k V Hpre Hpos Act) as (V3 & P3 & Pos3 & Act3).
    apply (method_terminates A (Z.to_nat k)); auto.
    pose proof (positive_active _ _ _ Pos3 Act3). rewrite Z2Nat.id by lia. exact Act3.
  Qed.

  (* A loop whose invariant promises to terminate does so, whatever the method promises. *)
  Theorem loop_terminates (A : accepted P th) m s0 perm l body s :
    m_kind (p_method P m) = Verified -> m_pre (p_method P m) s0 ->
    positive_method (m_term (p_method P m)) s0 = true ->
    passes P th (init_map th false (m_term (p_method P m)) (m_other (p_method P m)) s0)
      perm (Loop l body) s ->
    tcond_no_measure (l_term l) s = true -> terminates P (Loop l body) s.
  Proof.
    intros V Hpre Hpos H F.
    assert (good_calls (init_map th false (m_term (p_method P m)) (m_other (p_method P m)) s0))
      as HC.
    { intros m2 a2 V2 Hpre2 Hpos2 C n R.
      assert (tcond_no_measure (m_term (p_method P m2)) a2 = true) as F2.
      { unfold tcond in C. unfold tcond_no_measure. rewrite existsb_exists in *.
        destruct C as (t & M & C). apply andb_true_iff in C as [G _]. eauto. }
      split; [|apply (promise_terminates A m2 a2 V2 Hpre2 Hpos2 F2 n R)].
      apply flag_active, amount_active in F2 as (k & Act).
      apply (runs_active A m2 n R a2 k V2 Hpre2 Hpos2 Act). }
    apply (passes_terminates A _ HC (Loop l body) s 1); [discriminate|].
    cbn [passes] in *. destruct H as (H1 & _ & H3). split; [exact H1|]. split; [|exact H3].
    exists true. unfold before_loop_check. rewrite F. reflexivity.
  Qed.

  Lemma terminates_no_run c s : terminates P c s -> ~ diverges P c s.
  Proof.
    intro T; induction T as [r s|a b s Ta IHa Tb IHb|t a b s T IH|a b s Ta IHa Tb IHb
      |m enter leave s K Tn IHn|l body s E|l body s Tb IHb Tl IHl]; intro D.
    - inversion D.
    - inversion D; subst; eauto. eapply IHb; eauto.
    - inversion D; subst; eauto.
    - inversion D; subst; eauto. eapply IHb; eauto.
    - inversion D as [| | | | |m' e' l' s' n R V Dn|m' e' l' s' n R V| |]; subst.
      + exact (IHn n R V Dn).
      + exact (K n R V).
    - inversion D; subst; congruence.
    - inversion D; subst; eauto. eapply IHl; eauto.
  Qed.

  Theorem promise_no_run (A : accepted P th) m s :
    m_kind (p_method P m) = Verified -> m_pre (p_method P m) s ->
    positive_method (m_term (p_method P m)) s = true ->
    tcond_no_measure (m_term (p_method P m)) s = true ->
    forall n, runs P m n -> ~ diverges P (m_body (p_method P n)) s.
  Proof. intros. apply terminates_no_run. eapply promise_terminates; eauto. Qed.
End Proofs.

Lemma after_reset_same before gained : after_reset before gained = before.
Proof.
  unfold after_reset. cbv zeta. destruct (Nat.ltb_spec 0 (before + gained)); lia.
Qed.
