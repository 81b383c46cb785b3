(** Proofs for C59, part 4: executions. *)
From Coq Require Import List Bool Arith ZArith QArith Lqa Lia.
From Verif Require Import LockModel LockSpec LockProofs LockProofs2 LockProofs3.
Import ListNotations.
Local Open Scope nat_scope.

Section Runs.
  Variable sub : nat -> nat -> bool.
  Variable F : family.
  Hypothesis FR : framed F.

  Notation Inv := (Inv sub F).
  Notation good_act := (good_act sub F).
  Notation amt := (amt sub F).
  Notation okk := (okk sub F).

  Lemma inv_new st i : Inv st -> i < length (s_acts st) ->
    Inv (set_act (St (s_heap st) (s_next st + 1) (s_locks st) (s_acts st)) i
           (Act (fun r => match r with
                          | RF l => if Z.eqb (fst l) (s_next st) then (a_perm (act_of st i) r + 1)%Q else a_perm (act_of st i) r
                          | _ => a_perm (act_of st i) r
                          end) (refresh (s_heap st) (act_of st i)) (a_snap (act_of st i)))).
  Proof.
    intros I L. set (a' := Act _ _ _). set (st' := set_act _ _ _). pose proof (i_acts sub F st I i) as GI.
    assert (TOT : forall r, (tot st' r == tot st r - a_perm (act_of st i) r + a_perm a' r)%Q) by (intros r; apply total_update; exact L).
    assert (TI : forall k, (tot st' (RInv k) == tot st (RInv k))%Q) by (intros k; rewrite TOT; cbn; lra).
    assert (WT : forall k, (weight st' k == weight st k)%Q) by (intros k; unfold weight; rewrite TI; reflexivity).
    assert (INN : forall l, (inner sub F st' l == inner sub F st l)%Q).
    { intros l. unfold inner. change (s_locks st') with (s_locks st). apply sumk_ext. intros k _. rewrite WT. reflexivity. }
    constructor.
    - intros j. unfold act_of, st', set_act. cbn [s_acts]. apply good_update; [exact (i_acts sub F st I)|].
      destruct GI as (G1 & G2 & G3). split; [|split]; cbn [a' a_perm a_view a_snap].
      + intros [l|k|k|k]; try apply G1. pose proof (G1 (RF l)). destruct (_ =? _)%Z; lra.
      + intros l _. apply (good_refresh sub F st (act_of st i) l). split; auto.
      + exact G3.
    - intros l. rewrite INN, TOT. cbn. destruct (Z.eqb_spec (fst l) (s_next st)) as [E|D].
      + pose proof (i_new sub F st I l ltac:(lia)). lra.
      + pose proof (i_tot sub F st I l). lra.
    - intros l LE. rewrite INN, TOT. cbn in *. destruct (Z.eqb_spec (fst l) (s_next st)) as [E|D]; [lia|].
      pose proof (i_new sub F st I l ltac:(lia)). lra.
    - intros k LK P. rewrite WT in P. exact (i_holds sub F st I k LK P).
    - intros k. rewrite !TOT. pose proof (i_rel sub F st I k) as R. change (lock_of st' k) with (lock_of st k).
      change (a_perm a' (RRelB k)) with (a_perm (act_of st i) (RRelB k)). change (a_perm a' (RRelU k)) with (a_perm (act_of st i) (RRelU k)). lra.
    - intros k LK. rewrite TI. exact (i_fresh sub F st I k LK).
    - exact (i_ready sub F st I).
  Qed.

  Lemma set_heap_other h l v x : x <> l -> set_heap h l v x = h x.
  Proof. intros D. unfold set_heap. destruct (loc_eqb l x) eqn:E; [apply loc_eqb_eq in E; congruence|reflexivity]. Qed.

  Lemma set_heap_same h l v : set_heap h l v l = v.
  Proof. unfold set_heap. now rewrite loc_eqb_refl. Qed.

  (** Nothing inside of a valid invariant can be written. *)
  Lemma write_outside st i l k : Inv st -> (1 <= a_perm (act_of st i) (RF l))%Q -> k < length (s_locks st) ->
    (0 < weight st k)%Q -> (amt st k l <= 0)%Q.
  Proof.
    intros I P LK W. pose proof (i_tot sub F st I l) as T. pose proof (total_ge (s_acts st) i (RF l) (inv_nonneg sub F st I)) as T1.
    pose proof (inner_ge sub F FR st k l I LK) as T2. unfold tot, act_of in *.
    destruct (Qlt_le_dec 0 (amt st k l)) as [A|A]; [|exact A].
    assert (M : (0 < weight st k * amt st k l)%Q) by (now apply Qmult_lt_0_compat). lra.
  Qed.

  Lemma inv_write st i l v : Inv st -> i < length (s_acts st) -> (1 <= a_perm (act_of st i) (RF l))%Q ->
    Inv (set_act (St (set_heap (s_heap st) l v) (s_next st) (s_locks st) (s_acts st)) i
           (Act (a_perm (act_of st i)) (set_heap (a_view (act_of st i)) l v) (a_snap (act_of st i)))).
  Proof.
    intros I L P. set (a' := Act _ _ _). set (st' := set_act _ _ _). pose proof (inv_nonneg sub F st I) as N.
    assert (TOT : forall r, (tot st' r == tot st r)%Q).
    { intros r. unfold tot, st', set_act. cbn [s_acts]. rewrite total_update by exact L. cbn. unfold act_of. lra. }
    assert (WT : forall k, (weight st' k == weight st k)%Q) by (intros k; unfold weight; rewrite TOT; reflexivity).
    assert (FK : forall k, k < length (s_locks st) -> (0 < weight st k)%Q -> (forall x, amt st' k x = amt st k x) /\ okk st' k = true).
    { intros k LK W. apply (frame_k sub F FR st k (set_heap (s_heap st) l v) (i_holds sub F st I k LK W)).
      intros x A. apply set_heap_other. intros ->. pose proof (write_outside st i l k I P LK W). lra. }
    assert (INN : forall x, (inner sub F st' x == inner sub F st x)%Q).
    { intros x. unfold inner. change (s_locks st') with (s_locks st). apply sumk_ext. intros k LK. rewrite WT.
      destruct (Qlt_le_dec 0 (weight st k)) as [W|W].
      - destruct (FK k LK W) as (A & _). rewrite A. reflexivity.
      - pose proof (weight_nonneg st k N). assert (E : (weight st k == 0)%Q) by lra. rewrite E. lra. }
    assert (SN : forall a j, a_perm a = a_perm (act_of st j) -> a_snap a = a_snap (act_of st j) ->
              forall k, (0 < a_perm a (RInv k))%Q -> agrees sub F st' k (a_snap a k)).
    { intros a j E1 E2 k PK x A. rewrite E1 in PK. rewrite E2.
      assert (LK : k < length (s_locks st)).
      { destruct (Nat.lt_ge_cases k (length (s_locks st))) as [LK|LK]; [exact LK|].
        pose proof (i_fresh sub F st I k LK). pose proof (total_ge (s_acts st) j (RInv k) N). unfold tot, act_of in *. lra. }
      pose proof (weight_pos sub F st j k I PK) as W. destruct (FK k LK W) as (AE & _). rewrite AE in A.
      destruct (i_acts sub F st I j) as (_ & _ & G3). rewrite (G3 k PK x A). unfold st'. cbn. symmetry. apply set_heap_other.
      intros ->. pose proof (write_outside st i l k I P LK W). lra. }
    constructor.
    - intros j. unfold act_of, st', set_act. cbn [s_acts]. rewrite nth_update by exact L. fold st'. destruct (Nat.eqb_spec i j) as [E|D].
      + destruct (i_acts sub F st I i) as (G1 & G2 & G3). split; [exact G1|]. split; [|exact (SN a' i eq_refl eq_refl)].
        intros x PX. unfold st'. cbn in *. unfold set_heap. destruct (loc_eqb l x); [reflexivity|auto].
      + destruct (i_acts sub F st I j) as (G1 & G2 & G3). fold (act_of st j) in *. split; [exact G1|]. split; [|exact (SN _ j eq_refl eq_refl)].
        intros x PX. rewrite (G2 x PX). unfold st'. cbn. symmetry. apply set_heap_other. intros ->.
        pose proof (total_ge2 (s_acts st) i j (RF l) N D). pose proof (i_tot sub F st I l). pose proof (inner_nonneg sub F FR st l I).
        unfold tot, act_of in *. lra.
    - intros x. rewrite INN, TOT. exact (i_tot sub F st I x).
    - intros x LE. rewrite INN, TOT. exact (i_new sub F st I x LE).
    - intros k LK W. rewrite WT in W. exact (proj2 (FK k LK W)).
    - intros k. rewrite !TOT. exact (i_rel sub F st I k).
    - intros k LK. rewrite TOT. exact (i_fresh sub F st I k LK).
    - exact (i_ready sub F st I).
  Qed.

  Lemma exec_one h locks a c a' b : exec sub F h locks a [c] a' b -> exec1 sub F h locks a c a' b.
  Proof. intros X. inversion X as [|a0 c0 a1 b1 cs a2 b2 X1 X2]; subst. inversion X2; subst. now rewrite andb_true_r. Qed.

  Lemma total_two l i j a b r : i < length l -> j < length l -> i <> j ->
    (total (update (update l i a) j b) r ==
     total l r - a_perm (nth i l no_act) r + a_perm a r - a_perm (nth j l no_act) r + a_perm b r)%Q.
  Proof.
    intros LI LJ D. rewrite total_update by (now rewrite update_length). rewrite total_update by exact LI.
    rewrite nth_update by exact LI. apply Nat.eqb_neq in D. rewrite D. lra.
  Qed.

  Lemma inv_step st l st' : Inv st -> step sub F st l st' -> Inv st' /\ as_expected l.
  Proof.
    intros I S. destruct S.
    - split; [|exact Logic.I]. now apply inv_new.
    - split; [exact I|]. cbn. destruct (i_acts sub F st I i) as (_ & G2 & _). auto.
    - split; [|exact Logic.I]. now apply inv_write.
    - (* new lock *)
      pose proof (inv_add_lock sub F st C obj I) as I1. fold st1 in I1.
      assert (LK : k < length (s_locks st1)) by (unfold st1, k; cbn; rewrite app_length; cbn; lia).
      inversion H0 as [|a0 c a1 b1 cs a2 b2 X1 X2]; subst. clear H0.
      destruct (inv_fold sub F FR st1 i k 1 a1 b1 I1 H LK X1) as (-> & I2).
      destruct own_init.
      + inversion X2; subst. split; [exact I2|reflexivity].
      + assert (EA : act_of (set_act st1 i a1) i = a1).
        { unfold act_of, set_act. cbn [s_acts]. rewrite nth_update by exact H. now rewrite Nat.eqb_refl. }
        assert (EL : lock_of (set_act st1 i a1) k = Lk C obj false false).
        { unfold lock_of, set_act, st1, k. cbn. rewrite app_nth2 by lia. now rewrite Nat.sub_diag. }
        destruct (inv_init sub F FR (set_act st1 i a1) i k a' b2) as (-> & I3).
        * exact I2.
        * unfold set_act. cbn. rewrite update_length. exact H.
        * exact LK.
        * now rewrite EL.
        * rewrite EA. exact X2.
        * rewrite EL in I3. cbn [k_class k_obj] in I3.
          change (set_lock (set_act st1 i a1) k (Lk C obj true false)) with (set_act (set_lock st1 k (Lk C obj true false)) i a1) in I3.
          rewrite set_act_twice in I3. split; [exact I3|reflexivity].
    - destruct (inv_init sub F FR st i k a' b I H H0 H1 H2) as (-> & I'). split; [exact I'|reflexivity].
    - destruct (inv_acquire sub F FR st i k a' b I H H0 H1 H2 H3) as (-> & I'). split; [exact I'|reflexivity].
    - destruct (inv_release sub F FR st i k a' b I H H0 H1) as (T & -> & I'). split; [exact I'|exact T].
    - destruct (inv_fold sub F FR st i k q a' b I H H0 (exec_one _ _ _ _ _ _ H1)) as (-> & I'). split; [exact I'|reflexivity].
    - destruct (inv_unfold sub F FR st i k q a' b I H H0 (exec_one _ _ _ _ _ _ H1)) as (-> & I'). split; [exact I'|reflexivity].
    - (* give *)
      split; [|exact Logic.I]. unfold set_act. cbn [s_heap s_next s_locks s_acts].
      assert (T : forall r', (total (update (update (s_acts st) i (lose (act_of st i) r q)) j (gain (s_heap st) (act_of st j) r q)) r' == tot st r')%Q).
      { intros r'. rewrite total_two by assumption. rewrite gain_perm. cbn [lose a_perm]. rewrite minus_at, plus_at. unfold tot, act_of.
        destruct (res_eqb r r'); lra. }
      apply inv_acts; auto.
      + apply good_update; [|apply good_gain; [apply (i_acts sub F st I)|exact H2]].
        apply good_update; [exact (i_acts sub F st I)|]. apply good_lose; auto. apply (i_acts sub F st I).
      + intros l. rewrite T. lra.
      + intros k. rewrite T. lra.
      + intros k. rewrite (T (RRelB k)), (T (RRelU k)). lra.
    - (* MustRelease with a measure *)
      split; [|exact Logic.I]. unfold set_act. cbn [s_heap s_next s_locks s_acts].
      assert (RR : r = RRelB k \/ r = RRelU k) by apply rel_res_cases.
      assert (T : forall r', (total (update (update (s_acts st) i (lose (act_of st i) r 1)) j (gain (s_heap st) (act_of st j) (RRelB k) 1)) r'
                              == tot st r' - (if res_eqb r r' then 1 else 0) + (if res_eqb (RRelB k) r' then 1 else 0))%Q).
      { intros r'. rewrite total_two by assumption. rewrite gain_perm. cbn [lose a_perm]. rewrite minus_at, plus_at. unfold tot, act_of. lra. }
      apply inv_acts; auto.
      + apply good_update; [|apply good_gain; [apply (i_acts sub F st I)|lra]].
        apply good_update; [exact (i_acts sub F st I)|]. apply good_lose; [apply (i_acts sub F st I)|lra|exact H2].
      + intros l. rewrite T. destruct RR as [-> | ->]; cbn; lra.
      + intros k'. rewrite T. destruct RR as [-> | ->]; cbn; lra.
      + intros k'. rewrite !T. destruct RR as [-> | ->]; cbn [res_eqb]; destruct (k =? k'); lra.
    - (* bounding *)
      split; [|exact Logic.I]. unfold set_act.
      assert (T : forall r', (total (update (s_acts st) i (gain (s_heap st) (lose (act_of st i) (RRelU k) 1) (RRelB k) 1)) r'
                              == tot st r' - (if res_eqb (RRelU k) r' then 1 else 0) + (if res_eqb (RRelB k) r' then 1 else 0))%Q).
      { intros r'. rewrite total_update by assumption. rewrite gain_perm. cbn [lose a_perm]. rewrite plus_at, minus_at. unfold tot, act_of. lra. }
      apply inv_acts; auto.
      + apply good_update; [exact (i_acts sub F st I)|]. apply good_gain; [|lra]. apply good_lose; [apply (i_acts sub F st I)|lra|exact H1].
      + intros l. rewrite T. cbn. lra.
      + intros k'. rewrite T. cbn. lra.
      + intros k'. rewrite !T. cbn [res_eqb]. destruct (k =? k'); lra.
    - (* drop *)
      split; [|exact Logic.I]. unfold set_act.
      assert (T : forall r', (total (update (s_acts st) i (lose (act_of st i) r q)) r' <= tot st r')%Q).
      { intros r'. rewrite total_update by assumption. cbn [lose a_perm]. rewrite minus_at. unfold tot, act_of. destruct (res_eqb r r'); lra. }
      apply inv_acts; auto.
      + apply good_update; [exact (i_acts sub F st I)|]. apply good_lose; auto. apply (i_acts sub F st I).
      + intros k'. pose proof (T (RRelB k')). pose proof (T (RRelU k')). lra.
    - (* a new activation *)
      split; [|exact Logic.I].
      assert (T : forall r', (total (s_acts st ++ [no_act]) r' == tot st r')%Q) by (intros r'; rewrite total_app; unfold tot; cbn; lra).
      apply inv_acts; auto.
      + intros i. destruct (Nat.lt_ge_cases i (length (s_acts st))) as [L|L].
        * rewrite app_nth1 by exact L. apply (i_acts sub F st I).
        * rewrite app_nth2 by exact L. destruct (i - length (s_acts st)) as [|[|n]]; apply good_none.
      + intros l. rewrite T. lra.
      + intros k. rewrite T. lra.
      + intros k. rewrite (T (RRelB k)), (T (RRelU k)). lra.
  Qed.

  Lemma inv_start : Inv start.
  Proof.
    assert (T : forall r, (tot start r == 0)%Q) by (intros r; unfold tot; cbn; lra).
    constructor.
    - intros i. unfold act_of. cbn. destruct i as [|[|i]]; apply good_none.
    - intros l. rewrite T. unfold inner. cbn. lra.
    - intros l _. rewrite T. unfold inner. cbn. lra.
    - intros k L. cbn in L. lia.
    - intros k. rewrite (T (RRelB k)), (T (RRelU k)). unfold lock_of. cbn. destruct k; cbn; lra.
    - intros k _. rewrite T. lra.
    - intros k. unfold lock_of. cbn. destruct k; discriminate.
  Qed.

  Lemma run_expected tr st : steps sub F start tr st -> Inv st /\ Forall as_expected tr.
  Proof.
    intros S. remember start as s0 eqn:E. induction S as [s|s1 tr s2 l s3 S IH X]; subst.
    - split; [exact inv_start|constructor].
    - destruct (IH eq_refl) as (I & A). destruct (inv_step s2 l s3 I X) as (I' & E). split; [exact I'|].
      apply Forall_app. auto.
  Qed.

  Lemma no_race tr st : steps sub F start tr st -> ~ race sub F st.
  Proof.
    intros S (i & j & l & D & (s1 & W) & R). destruct (run_expected tr st S) as (I & _). pose proof (inv_nonneg sub F st I) as N.
    inversion W; subst. assert (P : (0 < a_perm (act_of st j) (RF l))%Q).
    { destruct R as [(s2 & R)|(kn & fo & s2 & R)]; inversion R; subst; lra. }
    pose proof (total_ge2 (s_acts st) i j (RF l) N D). pose proof (i_tot sub F st I l). pose proof (inner_nonneg sub F FR st l I).
    unfold tot, act_of in *. lra.
  Qed.

  Lemma release_perm st i k a' b : exec sub F (s_heap st) (s_locks st) (act_of st i) (release_code k) a' b ->
    (1 <= a_perm (act_of st i) (RRelB k) \/ 1 <= a_perm (act_of st i) (RRelU k))%Q.
  Proof.
    intros X. inversion X as [|a0 c a1 b1 cs a2 b2 X1 X2]; subst. inversion X2 as [|a0 c a3 b3 cs a4 b4 X3 X4]; subst.
    inversion X1; subst. inversion X3 as [| | | |k0 LE]; subst. clear -LE.
    match type of LE with context [rel_res ?p k] => destruct (rel_res_cases p k) as [E|E]; rewrite E in LE; cbn in LE; auto end.
  Qed.

  Lemma exclusive tr st i j k t t' : steps sub F start tr st -> can sub F st (LRelease i k t) -> can sub F st (LRelease j k t') -> i = j.
  Proof.
    intros S (s1 & R1) (s2 & R2). destruct (run_expected tr st S) as (I & _). pose proof (inv_nonneg sub F st I) as N.
    inversion R1; subst. inversion R2; subst. destruct (Nat.eq_dec i j) as [E|D]; [exact E|exfalso].
    match goal with X1 : exec _ _ _ _ (act_of st i) _ _ _, X2 : exec _ _ _ _ (act_of st j) _ _ _ |- _ =>
      pose proof (release_perm st i k _ _ X1) as P1; pose proof (release_perm st j k _ _ X2) as P2 end.
    pose proof (i_rel sub F st I k) as B.
    pose proof (total_ge2 (s_acts st) i j (RRelB k) N D) as A1. pose proof (total_ge2 (s_acts st) i j (RRelU k) N D) as A2.
    pose proof (N i (RRelB k)). pose proof (N i (RRelU k)). pose proof (N j (RRelB k)). pose proof (N j (RRelU k)).
    unfold tot, act_of in *. destruct (k_taken (lock_of st k)); destruct P1, P2; lra.
  Qed.

  Lemma can_write st i l : can sub F st (LWrite i l) -> (1 <= a_perm (act_of st i) (RF l))%Q.
  Proof. intros (s & X). inversion X; subst. assumption. Qed.

  Lemma can_read st i l kn fo : can sub F st (LRead i l kn fo) -> (0 < a_perm (act_of st i) (RF l))%Q.
  Proof. intros (s & X). inversion X; subst. assumption. Qed.

  Lemma protected tr st k q l : steps sub F start tr st -> free st k -> protects sub F st k q l ->
    (0 < q -> forall i, ~ can sub F st (LWrite i l))%Q /\
    (1 <= q -> forall i known found, ~ can sub F st (LRead i l known found))%Q.
  Proof.
    intros S (LK & RDY & TK) PR. destruct (run_expected tr st S) as (I & _). pose proof (inv_nonneg sub F st I) as N.
    assert (PQ : (q == amt st k l)%Q) by exact PR. clear PR.
    pose proof (inner_ge sub F FR st k l I LK) as IG. pose proof (i_tot sub F st I l) as T.
    assert (W : (1 <= weight st k)%Q).
    { unfold weight, freeq. rewrite RDY, TK. cbn. pose proof (total_nonneg (s_acts st) (RInv k) N). unfold tot. lra. }
    assert (A0 : (0 <= amt st k l)%Q) by (apply amt_nonneg; [exact FR|]; apply (i_holds sub F st I k LK); lra).
    assert (M : (amt st k l <= weight st k * amt st k l)%Q).
    { setoid_replace (amt st k l) with (1 * amt st k l)%Q at 1 by ring. apply Qmult_le_compat_r; assumption. }
    split; intros Q0 i.
    - intros X. apply can_write in X. pose proof (total_ge (s_acts st) i (RF l) N). unfold tot, act_of in *. lra.
    - intros kn fo X. apply can_read in X. pose proof (total_ge (s_acts st) i (RF l) N). unfold tot, act_of in *. lra.
  Qed.
End Runs.
