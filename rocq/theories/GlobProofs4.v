(** Programs that verify run without errors. *)
From Coq Require Import List Bool Arith ZArith Lia.
From Verif Require Import GlobModel GlobSpec GlobProofs GlobProofs2 GlobProofs3.
Import ListNotations.
Local Open Scope nat_scope.

Section Top.
  Variable P : prog.
  Notation fin := (final P).
  Notation own k := (from_of P (fst k) (snd k) = None).
  Hypothesis KA : known_attributes P.
  Hypothesis IF : imports_ok P.
  Hypothesis NL : no_final_in_loops P.
  Hypothesis SF : simple_functions P.
  Hypothesis NCl : no_clashes P.

  Let CF : chain_free P := wb_chain_free P IF.
  Let KF : keys_final P := wb_keys_final P IF.
  Let OF : ok_funs P := wb_ok_funs P KA IF NL SF.

  Definition mw (ms : list (nat * stmt)) : list key := flat_map (fun d => writes P false (fst d) (snd d)) ms.
  Definition ready (ms : list (nat * stmt)) (s : env) : Prop :=
    incl ms (mods P) /\ (forall v, fin v = true -> cnt v (mw ms) <= 1) /\ (forall v, fin v = true -> In v (mw ms) -> s v = None).

  Lemma mw_own : forall ms v, incl ms (mods P) -> In v (mw ms) -> own v.
  Proof.
    intros ms v HI H. apply in_flat_map in H. destruct H as ([m p] & H1 & H2). cbn [fst snd] in H2.
    apply writes_targets in H2. apply in_map_iff in H2. destruct H2 as (r & Hr & H2).
    assert (O : own (pykey m r)).
    { apply target_own; [ exact IF |]. apply (in_targets P m p); [ apply in_or_app; left; now apply HI | exact H2 ]. }
    rewrite <- Hr, (own_resolve P _ _ O). exact O.
  Qed.

  Lemma ready_head : forall m p ms s, ready ((m, p) :: ms) s -> ok P false m p /\ fresh P false m p s.
  Proof.
    intros m p ms s (HI & C & F). split.
    - apply wb_ok_mod; auto. apply HI. now left.
    - intros v Fv W. apply F; [ exact Fv |]. unfold mw. cbn [flat_map fst snd]. apply in_or_app. now left.
  Qed.
  Lemma ready_tail : forall m p ms s s', ready ((m, p) :: ms) s -> kept P false m p s s' -> ready ms s'.
  Proof.
    intros m p ms s s' (HI & C & F) K.
    assert (HI' : incl ms (mods P)) by (intros x Hx; apply HI; now right).
    split; [ exact HI' |]. split.
    - intros v Fv. specialize (C v Fv). unfold mw in C. cbn [flat_map] in C. rewrite cnt_app in C. unfold mw. lia.
    - intros v Fv W. rewrite (k_same _ _ _ _ _ _ K v Fv).
      + apply F; [ exact Fv |]. unfold mw. cbn [flat_map]. apply in_or_app. now right.
      + exact (mw_own ms v HI' W).
      + intros W1. specialize (C v Fv). unfold mw in C. cbn [flat_map fst snd] in C. rewrite cnt_app in C.
        apply cnt_in in W1. apply cnt_in in W. unfold mw in W. lia.
  Qed.

  Lemma run_kept : forall n ms s o, ready ms s -> run (funs P) n ms s = Some o -> ax P s -> copy P s ->
    ax P (oenv o) /\ copy P (oenv o) /\ fle P s (oenv o).
  Proof.
    intros n. induction ms as [|[m p] ms IH]; intros s o RD E A C; cbn [run] in E.
    - injection E as <-. cbn [oenv]. split; [ exact A |]. split; [ exact C | apply fle_refl ].
    - destruct (ready_head _ _ _ _ RD) as [K F].
      destruct (exec (funs P) n m p s) as [[s1|s1]|] eqn:E1; try discriminate.
      + pose proof (exec_kept P CF OF KF _ _ _ _ _ _ K F E1) as KP. cbn [oenv] in KP.
        destruct (IH s1 o (ready_tail _ _ _ _ _ RD KP) E (k_ax _ _ _ _ _ _ KP A C) (k_copy _ _ _ _ _ _ KP C)) as (X & Y & Z0).
        split; [ exact X |]. split; [ exact Y |]. eapply fle_trans; [ apply (k_fle _ _ _ _ _ _ KP C) | exact Z0 ].
      + injection E as <-. pose proof (exec_kept P CF OF KF _ _ _ _ _ _ K F E1) as KP.
        split; [ exact (k_ax _ _ _ _ _ _ KP A C) |]. split; [ exact (k_copy _ _ _ _ _ _ KP C) | exact (k_fle _ _ _ _ _ _ KP C) ].
  Qed.

  Definition clash (k : key) : Prop := exists p m, In (fst k, p) (mods P) /\ In (RAttr m (snd k)) (targets p).
  Lemma read_no_clash : forall k, In k (read_keys P) -> ~ clash k.
  Proof. intros [m0 x] H (p & m & H1 & H2). exact (NCl _ _ _ _ H1 H2 H). Qed.
  Lemma mod_reads_ok : forall m0 p s, In (m0, p) (mods P) -> reads_ok clash true m0 p s.
  Proof.
    intros m0 p s H. split.
    - intros r Hr. cbn [defd]. apply read_no_clash. apply in_or_app. left. apply in_flat_map. exists (m0, p). split; [ exact H |].
      cbn [fst snd]. apply in_or_app. left. now apply in_map.
    - intros _. split.
      + intros k Hk. apply read_no_clash. apply in_or_app. left. apply in_flat_map. exists (m0, p). split; [ exact H |].
        apply in_or_app. now right.
      + intros m x Hx. exists p, m. now split.
  Qed.

  Section Run.
    Variable I : key -> Z.
    Hypothesis FV : forall f d, In (f, d) (funs P) -> fun_ok P I idh d.
    Lemma mods_fine : forall n ms s o st, ready ms s -> run (funs P) n ms s = Some o -> ax P s -> rel P I clash s st ->
      (forall v z, fin v = true -> oenv o v = Some z -> I v = z) ->
      wp_mods P I idh ms st -> exists s', o = Done s'.
    Proof.
      intros n. induction ms as [|[m p] ms IH]; intros s o st RD E A R FI W; cbn [run] in E; cbn [wp_mods] in W.
      - injection E as <-. eauto.
      - destruct (ready_head _ _ _ _ RD) as [K F].
        assert (Hm : In (m, p) (mods P)) by (apply (proj1 RD); now left).
        assert (DC : forall f d k, In (f, d) (funs P) -> In k (deps d) -> ~ clash k).
        { intros f d k H1 H2. apply read_no_clash. apply in_or_app. right. apply in_flat_map. exists (f, d). now split. }
        destruct (exec (funs P) n m p s) as [[s1|s1]|] eqn:E1; try discriminate.
        + pose proof (exec_kept P CF OF KF _ _ _ _ _ _ K F E1) as KP. cbn [oenv] in KP.
          pose proof (ready_tail _ _ _ _ _ RD KP) as RD1.
          assert (A1 : ax P s1) by exact (k_ax _ _ _ _ _ _ KP A (r_copy _ _ _ _ _ R)).
          assert (C1 : copy P s1) by exact (k_copy _ _ _ _ _ _ KP (r_copy _ _ _ _ _ R)).
          assert (FI1 : forall v z, fin v = true -> oenv (Done s1) v = Some z -> I v = z).
          { intros v z Fv Ev. apply FI; [ exact Fv |]. destruct (run_kept n ms s1 o RD1 E A1 C1) as (_ & _ & L). now apply L. }
          destruct (sim P I clash CF KF OF FV DC n true m p s (Done s1) st _ K F (mod_reads_ok m p s Hm) R E1 FI1 W) as (s' & st1 & E' & R1 & W1 & _).
          injection E' as <-. exact (IH s1 o st1 RD1 E A1 R1 FI W1).
        + injection E as <-.
          destruct (sim P I clash CF KF OF FV DC n true m p s (Fail s1) st _ K F (mod_reads_ok m p s Hm) R E1 FI W) as (s' & st1 & E' & _). discriminate.
    Qed.
  End Run.

  Hypothesis NCi : not_circular P.

  Lemma globals_fine : verifies P -> runs_fine P.
  Proof.
    intros V n A E. destruct NCi as [rank NR].
    assert (RD : ready (mods P) (fun _ => None)).
    { split; [ apply incl_refl |]. split; [| reflexivity ]. intros v Fv. pose proof (final_cnt P v Fv) as C. unfold all_writes in C. rewrite cnt_app in C.
      unfold mod_writes in C. unfold mw. lia. }
    assert (A0 : ax P (fun _ => None)) by (intros v z m0 e _ H; discriminate).
    assert (C0 : copy P (fun _ => None)) by (intros m0 x m z _ H; discriminate).
    destruct (run_kept n (mods P) _ _ RD E A0 C0) as (A1 & C1 & _). cbn [oenv] in A1, C1.
    set (I := the_interp P rank A).
    assert (AX : axioms P I) by (apply the_interp_axioms; assumption).
    destruct (V I idh AX) as [M FV].
    assert (GV : exists p, give (map idh (mutable P)) (fun _ => false) = Some p).
    { apply give_ok; [| reflexivity ]. rewrite map_id. unfold mutable. apply NoDup_filter, NoDup_nodup. }
    destruct GV as [p GV]. specialize (M (fun _ => 0%Z) p GV).
    assert (R0 : rel P I clash (fun _ => None) {| hp := fun _ => 0%Z; pm := p; nm := fun _ => false |}).
    { split; [ intros; discriminate | intros; discriminate | intros; discriminate | exact C0 ]. }
    assert (FI : forall v z, fin v = true -> oenv (Fail A) v = Some z -> I v = z).
    { intros v z Fv Ev. cbn [oenv] in Ev. unfold I. now apply the_interp_env. }
    destruct (mods_fine I FV n (mods P) _ _ _ RD E A0 R0 FI M) as [s' X]. discriminate.
  Qed.
End Top.
